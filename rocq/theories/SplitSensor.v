(** Bounds of sensor functions by splitting the domain: [parsed_sensor], [parsed_sensor_expr] and [clear_sensor_cache] of
    verse/analysis/parsed_wrap/sensor_parser.py, and the replacements for [norm] and [atan2].

    Simplifications: auto_LiRPA's CROWN bounds are a parameter; numbers are rationals, the conversion to 32-bit floats is a
    parameter; the pickle directory is a dictionary; the two arrays of bounds of a function always have the same length. *)
From Coq Require Import QArith.Qminmax Reals.
From Verif Require Import Base PyText Dict ParseArray.
Set Implicit Arguments.
Open Scope nat_scope.

Section SplitSensor.
  (** Code of sensor functions. *)
  Variable F : Type.
  (** A Python function: its [__name__] and its source. *)
  Record sensor := Sensor { sensor_name : word; sensor_code : F }.
  (** [torch.tensor(x, dtype=torch.float32)] *)
  Variable f32 : Q -> Q.
  (** [BoundedModule(TorchFuncModule(fn), ...).compute_bounds(x, method="CROWN")] *)
  Variable crown : F -> list (Q * Q) -> vec * vec.
  (** The file name: [get_cache_key], sensor_parser.py:25-30, with the number of splits, :293-294 *)
  Variable K : Type.
  Variable keqb : K -> K -> bool.
  Variable key : list (Q * Q) -> word -> nat -> K.

  (** A result; [None] is the pair [(None, None)] *)
  Definition answer : Type := option (vec * vec).
  Definition cache : Type := dict K answer.

  (** sensor_parser.py:311-318 and 382-389 *)
  Definition parts (num_splits : nat) (b : Q * Q) : list (Q * Q) :=
    if Qeq_bool (fst b) (snd b) then [(fst b, fst b)]
    else map (fun i => (split_point (fst b) (snd b) num_splits i, split_point (fst b) (snd b) num_splits (S i))) (seq 0 num_splits).
  (** sensor_parser.py:324-332 and 395-403 *)
  Definition bounded_inputs (split_bounds : list (Q * Q)) : list (Q * Q) := map (fun b => (f32 (fst b), f32 (snd b))) split_bounds.
  (** sensor_parser.py:342-347 and 413-418 *)
  Definition update (global : answer) (r : vec * vec) : answer :=
    match global with
    | None => Some r
    | Some (lb, ub) => Some (zipw Qmin lb (fst r), zipw Qmax ub (snd r))
    end.
  (** sensor_parser.py:305-347 and 376-418 *)
  Definition bound_pieces (code : F) (input_bounds : list (Q * Q)) (num_splits : nat) : answer :=
    fold_left (fun global split_bounds => update global (crown code (bounded_inputs split_bounds)))
      (product (map (parts num_splits) input_bounds)) None.

  (** [parsed_sensor], sensor_parser.py:265-352, with [input_bounds] and [sim=False] *)
  Definition parsed_sensor (st : cache) (fn : sensor) (input_bounds : list (Q * Q)) (num_splits : nat) : cache * answer :=
    let cache_file := key input_bounds (sensor_name fn) num_splits in
    match dget keqb cache_file st with
    | Some r => (st, r)
    | None =>
      let r := bound_pieces (sensor_code fn) input_bounds num_splits in
      (dset keqb cache_file r st, r)
    end.
  (** [parsed_sensor_expr], sensor_parser.py:354-423 *)
  Definition parsed_sensor_expr (code : F) (input_bounds : list (Q * Q)) (num_splits : nat) : answer := bound_pieces code input_bounds num_splits.
  (** [clear_sensor_cache], sensor_parser.py:32-37 *)
  Definition clear_sensor_cache (st : cache) : cache := [].

  (** Histories of calls *)
  Inductive request := Ask (fn : sensor) (input_bounds : list (Q * Q)) (num_splits : nat)
    | AskExpr (code : F) (input_bounds : list (Q * Q)) (num_splits : nat) | ClearCache.
  Definition serve (st : cache) (r : request) : cache * option answer :=
    match r with
    | Ask fn bs n => let (st', a) := parsed_sensor st fn bs n in (st', Some a)
    | AskExpr code bs n => (st, Some (parsed_sensor_expr code bs n))
    | ClearCache => (clear_sensor_cache st, None)
    end.
  Fixpoint serve_all (st : cache) (rs : list request) : cache * list (option answer) :=
    match rs with
    | [] => (st, [])
    | r :: rs' => let (st1, a) := serve st r in let (st2, l) := serve_all st1 rs' in (st2, a :: l)
    end.
End SplitSensor.

Open Scope R_scope.
(** [torch.sign] *)
Definition tsign (x : R) : R := if Rlt_dec 0 x then 1 else if Rlt_dec x 0 then -1 else 0.
(** [torch.atan(a / b)] for [b >= 0]: dividing by zero gives an infinity with the sign of [a]; [None] is nan *)
Definition atan_quotient (a b : R) : option R :=
  if Req_EM_T b 0 then (if Req_EM_T a 0 then None else Some (tsign a * (PI / 2))) else Some (atan (a / b)).
(** [atan2_crown_safe(y, x)], sensor_parser.py:78-103 *)
Definition atan2_crown_safe (y x : R) : option R :=
  let eps := / 100000000 in
  let abs_x := Rabs x in
  let y_adj := y * tsign (x + eps) in
  let correction := PI * (1 - tsign x) / 2 * tsign y in
  do theta <- atan_quotient y_adj abs_x;
  Some (theta + correction).
(** [norm] of a list of numbers, sensor_parser.py:39-53 *)
Definition torch_norm (x : list R) : R := sqrt (fold_right (fun a s => a * a + s) 0 x + / 100000000).
