(** C100: what setting initial conditions on an agent does, and that a refused call changes nothing. *)
From Coq Require Import Ascii String Lqa.
From Verif Require Import Base BaseFacts PyText Dict LaneMap3d ResetProofs Scenario ScenarioSpec ScenarioProofs ScenarioMain Runs RunsSpec RunsProofs RunsMain RunsProps.
Set Implicit Arguments.
Open Scope nat_scope.

Section Calls.
  Variables rng tree engine args : Type.
  Variable seeded : Z -> rng.
  Variable draw : rng -> Q * rng.
  Variable fresh_engine : engine.
  Variable analyse : kind -> args -> engine -> root -> nat -> list tree -> option tree * engine.
  Notation do_call := (@do_call rng tree engine args seeded draw fresh_engine analyse).

  (** C100.  Adding an agent, or setting initial conditions on an agent, either is refused and leaves the scenario as it
      was, or is accepted. *)
  Theorem C100_refused sc c ts sc' : (exists ag, c = CAdd args ag) \/ (exists id o m x u, c = CAgent args id o m x u) ->
    do_call sc c = (ts, false, sc') -> sc' = sc /\ ts = [].
  Proof.
    intros [[ag ->]|(id & o & m & x & u & ->)]; cbn [Runs.do_call].
    - destruct (add_agent (st sc) ag); intros [= <- <-]; auto.
    - destruct (agent_set_initial (st sc) id o m x u); intros [= <- <-]; auto.
  Qed.
  (** C100.  Setting initial conditions on an agent that the scenario has, from a list that exists, is accepted; the
      agent then has the mode, and the conditions the scenario itself holds are those from before. *)
  Theorem C100_agent_set sc id o m : dget word_eqb id (agent_dict (st sc)) <> None -> deepcopy (hp (st sc)) o <> None ->
    exists sc' ag, do_call sc (CAgent args id o m None None) = ([], true, sc') /\ dget word_eqb id (agent_dict (st sc')) = Some ag /\ init_disc ag = Some m /\
      init_dict (st sc') = init_dict (st sc) /\ init_mode_dict (st sc') = init_mode_dict (st sc) /\
      (forall id', id' <> id -> dget word_eqb id' (agent_dict (st sc')) = dget word_eqb id' (agent_dict (st sc))).
  Proof.
    intros A D. cbn [Runs.do_call]. unfold agent_set_initial. destruct (dget word_eqb id (agent_dict (st sc))) as [ag|] eqn:G; [|contradiction]. cbn [obind]. destruct (deepcopy (hp (st sc)) o) as [c|]; [|contradiction].
    cbn [obind copy_flat_opt copy_opt fst snd]. eexists. eexists. split; [reflexivity|]. cbn [st on_state agent_dict init_dict init_mode_dict]. rewrite put_same. split; [reflexivity|]. split; [reflexivity|]. do 2 (split; [reflexivity|]). intros id' N. apply put_other. exact N.
  Qed.
End Calls.
Print Assumptions C100_refused.
Print Assumptions C100_agent_set.
Module Example_calls.
  Import Example_runs.
  (** Setting on a known agent is accepted, and on one the scenario does not have is refused. *)
  Example known_agent : dget word_eqb (w "b") (agent_dict (st sc1)) <> None /\ deepcopy (hp (st sc1)) 0 <> None.
  Proof. split; vm_compute; discriminate. Qed.
  Example refused : exists sc', ecall sc1 (CAgent nat (w "z") 0 [w "Normal"] None None) = ([], false, sc').
  Proof. eexists. vm_compute. reflexivity. Qed.
End Example_calls.
