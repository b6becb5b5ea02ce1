(** Experiments from the command line: ExprConfig and Benchmark, verse/scenario/scenario.py 424-575.

    Simplifications: a configuration holds the fields that the command line sets and what the keywords set; keywords that
    name one of these fields again, or none, are not given (they are a TypeError).  Scenarios are oracles: they are
    simulated and verified, give the counters of their caches and take a new configuration.  Times, sizes in memory, and
    the numbers from Ray's timeline are left out of the reports; so are names of maps, agents and engines. *)
From Coq Require Import Ascii String.
From Verif Require Import Base Dict PyText Guard Tree.
Set Implicit Arguments.
Open Scope nat_scope.

(** [x in arg] for a letter *)
Definition has (x : ascii) (arg : word) : bool := existsb (Ascii.eqb x) arg.
(** arg.replace(o, "") for a letter *)
Definition erase (o : ascii) (arg : word) : word := filter (fun c => negb (Ascii.eqb c o)) arg.

Section Bench.
  (** Keywords, scenarios and results. *)
  Variables Kw S T : Type.

  (** ScenarioConfig, 24-49 *)
  Record sconfig := mk_sconfig { incremental : bool; parallel : bool; try_local : bool; others : Kw }.
  (** ExprConfig, 424-432, 444 *)
  Record econfig := mk_econfig { config : sconfig; args : word; rest : list word; compare : bool; plot : bool; dump : bool; sim : bool; kw : Kw }.

  (** from_arg, 434-445 *)
  Definition from_arg (a : list word) (k : Kw) : econfig :=
    let arg := if length a <? 2 then [] else nth 1 a [] in
    let sc := mk_sconfig (has "i"%char arg) (has "l"%char arg) (has "t"%char arg) k in
    let arg' := fold_left (fun arg o => erase o arg) (w "cilpdv") arg in
    mk_econfig sc arg' (skipn 2 a) (has "c"%char arg) (has "p"%char arg) (has "d"%char arg) (negb (has "v"%char arg)) k.

  (** What a scenario does; None: it raises. *)
  Variable simulate : S -> list Q -> option (S * tree T).
  Variable verify : S -> list Q -> Kw -> option (S * tree T).
  Variables sim_hits tube_hits trans_hits : S -> nat * nat.
  Variable agents : S -> nat.
  (** Scenario.update_config, 75-78 *)
  Variable update_config : S -> sconfig -> S.
  Variable contains : tree T -> tree T -> option bool.

  (** What a report prints, 555-572. *)
  Record report_ := mk_report { r_agents : nat; r_nodes : nat; r_leaves : nat; r_timesteps : Z; r_hits : option (nat * nat * Q) }.
  (** Benchmark, 461-485: the fields that a run sets are there after the first run. *)
  Record stats := mk_stats { b_hits : nat * nat; b_agents : nat; b_nodes : nat; b_leaves : nat; b_timesteps : Z }.
  Record bench := mk_bench { b_config : econfig; b_scenario : S; b_stats : option stats }.

  (** Scenario(config): an oracle *)
  Variable new_scenario : sconfig -> S.
  (** __init__, 477-485 *)
  Definition init (argv : list word) (k : Kw) : bench :=
    let c := from_arg argv k in mk_bench c (new_scenario (config c)) None.

  (** int(x / y) *)
  Definition int_div (x y : Q) : option Z :=
    if Qeq_bool y 0 then None else let q := (x / y)%Q in Some (Z.quot (Qnum q) (Zpos (Qden q))).

  (** run, 487-529; None: IndexError, ZeroDivisionError or what the scenario raises *)
  Definition run (b : bench) (a : list Q) (k : Kw) : option (bench * tree T) :=
    do a0 <- nth_error a 0;
    do a1 <- nth_error a 1;
    do ts <- int_div a0 a1;
    do r <- (if sim (b_config b) then simulate (b_scenario b) a else verify (b_scenario b) a k);
    let s := fst r in
    let hits := if sim (b_config b) then sim_hits s
                else (fst (tube_hits s) + fst (trans_hits s), snd (tube_hits s) + snd (trans_hits s)) in
    do ns <- nodes (snd r);
    Some (mk_bench (b_config b) s (Some (mk_stats hits (agents s) (length ns) (leaves ns) ts)), snd r).

  (** report, 555-572; None: no run yet, or no lookups *)
  Definition report (b : bench) : option report_ :=
    do st <- b_stats b;
    do h <- (if incremental (config (b_config b)) then
               let (x, y) := b_hits st in
               if x + y =? 0 then None
               else Some (Some (x, y, (inject_Z (Z.of_nat x) / inject_Z (Z.of_nat (x + y)) * 100)%Q))
             else Some None);
    Some (mk_report (b_agents st) (b_nodes st) (b_leaves st) (b_timesteps st) h).

  (** replace_scenario, 546-553, with a scenario; None: IndexError *)
  Definition replace_scenario (b : bench) (s : S) : option bench :=
    do arg <- nth_error (rest (b_config b)) 0;
    let e := b_config b in
    let sc := mk_sconfig (has "i"%char arg) (has "l"%char arg) false (kw e) in
    let e' := mk_econfig sc (args e) (rest e) (compare e) (plot e) (dump e) (sim e) (kw e) in
    Some (mk_bench e' (update_config s sc) (b_stats b)).

  (** compare_run, 531-544.  In the branch with arguments left the new scenario is a word of the command line, which has
      no update_config: AttributeError, or IndexError before it. *)
  Definition compare_run (b : bench) (a : list Q) (k : Kw) : option (bench * (tree T * tree T) * (report_ * report_) * (bool * bool)) :=
    if compare (b_config b) then
      do r1 <- run b a k;
      do p1 <- report (fst r1);
      match rest (b_config (fst r1)) with
      | [] =>
        do r2 <- run (fst r1) a k;
        do p2 <- report (fst r2);
        do c12 <- contains (snd r1) (snd r2);
        do c21 <- contains (snd r2) (snd r1);
        Some (fst r2, (snd r1, snd r2), (p1, p2), (c12, c21))
      | _ => None
      end
    else None.
End Bench.
