(** C31, C32, C33 (simulate) and C34: simulation steps. *)
From Coq Require Import Ascii String Lia.
From Verif Require Import Base BaseFacts Dict PyText Utils ResetSpec Scan ScanSpec Step Round RoundProofs Sim SimSpec SimProofs SimMain.
From Coq Require Import Qabs Lqa.
Set Implicit Arguments.
Open Scope nat_scope.

(** Traces of a chain of nodes glued together: each starts with the row at which the one before ends. *)
Fixpoint glue {row : Type} (cs : list (list row)) (last : list row) : list row :=
  match cs with [] => last | c :: cs' => c ++ tl (glue cs' last) end.

Section Props.
  Variables path cond : Type.
  Variable pvar : path -> word.
  Variable agents : list (sagent path cond).
  Variable e_cond : list mode -> list vec -> nat -> cond -> option bool.
  Variable e_path : list mode -> list vec -> nat -> path -> option bool.
  Variable e_val : list mode -> list vec -> nat -> path -> option value.
  Variable maph : option word -> option mode -> option mode -> option word.
  Variable trace_of : nat -> mode -> vec -> Q -> option strace.
  Variable digits : nat.
  (** Each agent's variables have different names. *)
  Hypothesis named : forall a ag, nth_error agents a = Some ag -> NoDup (sa_disc ag) /\ NoDup (sa_cont ag).
  Notation step := (simulate_one pvar agents e_cond e_path e_val maph trace_of digits).

  (** C31.  A step either finds no event in any row, keeps the whole trace and has no child; or, at the first row [n]
      with an event, (1) an assertion fails, exactly the failing labels are reported, there is no child and the
      trace is cut there; or (2) none fails there, some guard holds, but the map allows no move: the trace is kept and
      there is no child; or (3) some agent can move: the trace is cut after row [n], every child stands for one
      possible move of each agent that can move, and for every choice of possible destinations there is exactly one child.
      Partial: in case (2) the scan stops although there may be a later event ([C31_rejected_refuted]), and of several
      moves to the same destination with different next states only one has children
      ([C31_same_destination_refuted]). *)
  Theorem C31_first_event_partial unsafe nd remain r : step unsafe nd remain = Some r ->
    exists trs tr0, full_traces agents trace_of nd remain trs /\ nth_error trs 0 = Some tr0 /\
    let ms := s_mode nd in
    let quiet := quiet agents e_cond e_path trs ms in
    let fails := fails agents e_cond trs ms in
    let can_move := can_move pvar agents e_path e_val maph trs ms in
    (quiet (length tr0) /\ r = mk_sresult [] trs None) \/
    exists n, n < length tr0 /\ quiet n /\
      ((exists a x, looked_at agents a /\ fails n a x) /\
       (exists asr, reports agents e_cond trs ms n asr /\ r = mk_sresult [] (if unsafe then trs else map (firstn n) trs) (Some asr)) \/
       (forall a x, looked_at agents a -> ~ fails n a x) /\ (exists a p, enabled agents e_path trs ms n a p) /\
       ((forall a d s, ~ can_move n a d s) /\ r = mk_sresult [] trs None \/
        (exists a d s, can_move n a d s) /\ sr_trace r = map (firstn (n + 1)) trs /\ sr_asserts r = None /\
        (forall ch, In ch (sr_child r) -> exists mv, moves_at pvar agents e_path e_val maph trs ms n mv /\ child_for trs digits nd n mv ch) /\
        (forall D : nat -> mode, (forall a d s, can_move n a d s -> exists s', can_move n a (D a) s') ->
           exists ch mv, In ch (sr_child r) /\ moves_at pvar agents e_path e_val maph trs ms n mv /\ child_for trs digits nd n mv ch /\
             forall a d s, mv a = Some (d, s) -> d = D a) /\
        NoDup (map s_mode (sr_child r)))).
  Proof. exact (@simulate_one_spec _ _ _ _ _ _ _ _ _ digits named unsafe nd remain r). Qed.

  (** C33, simulate: an agent whose mode differs between a node and its child moved as the map allows. *)
  Theorem C33_simulate_respects_map unsafe nd remain r ch a ag m d : step unsafe nd remain = Some r -> In ch (sr_child r) ->
    nth_error agents a = Some ag -> nth_error (s_mode nd) a = Some m -> nth_error (s_mode ch) a = Some d ->
    d = m \/ permitted (d_types (sa_logic ag)) maph m d.
  Proof.
    intros E Hch Ea Em Ed. destruct (C31_first_event_partial _ _ _ E) as (trs & tr0 & [Lt _] & _ & [(_ & ->)|(n & _ & _ & [(_ & asr & _ & ->)|(_ & _ & [(_ & ->)|(_ & _ & _ & H & _)])])]); [easy|easy|easy|].
    destruct (H ch Hch) as (mv & Hmv & (_ & _ & _ & Hc & _)). assert (La : a < length trs) by (rewrite Lt; apply nth_error_Some; congruence).
    specialize (Hc a La). specialize (Hmv a). destruct (mv a) as [[d' s]|].
    - right. destruct Hc as [Hc _]. assert (Lm : a < length (s_mode nd)) by (apply nth_error_Some; congruence). rewrite (Hc Lm) in Ed. injection Ed as ->.
      destruct Hmv as (ag' & js & m' & s0 & c & H1 & _ & H3 & _ & _ & _ & _ & Hp). congruence.
    - left. destruct Hc as [Hc _]. congruence.
  Qed.

  (** ... and a permitted destination of an agent at the row of the event has a child. *)
  Theorem C33_simulate_keeps_permitted unsafe nd remain r : step unsafe nd remain = Some r -> sr_child r <> [] ->
    exists trs n, full_traces agents trace_of nd remain trs /\ quiet agents e_cond e_path trs (s_mode nd) n /\ sr_trace r = map (firstn (n + 1)) trs /\
      forall a d s, can_move pvar agents e_path e_val maph trs (s_mode nd) n a d s -> exists ch, In ch (sr_child r) /\ nth_error (s_mode ch) a = Some d.
  Proof.
    intros E Hne. destruct (C31_first_event_partial _ _ _ E) as (trs & tr0 & Hfull & _ & [(_ & ->)|(n & _ & Hq & [(_ & asr & _ & ->)|(_ & _ & [(_ & ->)|(_ & Htr & _ & H1 & H2 & _)])])]); [easy|easy|easy|].
    exists trs, n. split; [exact Hfull|]. split; [exact Hq|]. split; [exact Htr|]. intros a d s Hm.
    (* any child gives a choice for the other agents *)
    destruct (sr_child r) as [|ch0 cs] eqn:Ecs; [easy|]. destruct (H1 ch0 (or_introl eq_refl)) as (mv0 & Hmv0 & _).
    destruct (H2 (fun b => if b =? a then d else match mv0 b with Some (d', _) => d' | None => [] end)) as (ch & mv & Hin & Hmv & (_ & _ & _ & Hc & _) & HD).
    - intros b d' s' Hb. destruct (b =? a) eqn:Eb; [apply Nat.eqb_eq in Eb; subst b; eauto|]. specialize (Hmv0 b).
      destruct (mv0 b) as [[d0 s0]|]; [eauto|]. exfalso. exact (Hmv0 _ _ Hb).
    - exists ch. split; [exact Hin|]. destruct Hm as (ag & js & m & s0 & c & G1 & G2 & G3 & G4 & G5).
      assert (La : a < length trs) by (destruct Hfull as [-> _]; apply nth_error_Some; congruence). specialize (Hc a La). specialize (Hmv a).
      destruct (mv a) as [[d0 s1]|] eqn:Emv.
      + specialize (HD a d0 s1 Emv). cbv beta in HD. rewrite Nat.eqb_refl in HD. subst d0. apply Hc. apply nth_error_Some. congruence.
      + exfalso. apply (Hmv d s). exists ag, js, m, s0, c. auto.
  Qed.

  (** C34.  A failing assertion of an agent is reported at the first row where one fails, if no guard holds at an earlier
      row.  Partial: only for agents with at least one way to change mode or state; see [C34_refuted]. *)
  Theorem C34_reported_partial unsafe nd remain r : step unsafe nd remain = Some r ->
    exists trs tr0, full_traces agents trace_of nd remain trs /\ nth_error trs 0 = Some tr0 /\
    forall n a x, n < length tr0 -> looked_at agents a -> fails agents e_cond trs (s_mode nd) n a x ->
      (forall i b p, i < n -> ~ enabled agents e_path trs (s_mode nd) i b p) ->
      exists n' asr, n' <= n /\ sr_asserts r = Some asr /\ reports agents e_cond trs (s_mode nd) n' asr /\
        (forall i b y, i < n' -> looked_at agents b -> ~ fails agents e_cond trs (s_mode nd) i b y) /\
        (exists b y, looked_at agents b /\ fails agents e_cond trs (s_mode nd) n' b y).
  Proof.
    intros E. destruct (C31_first_event_partial _ _ _ E) as (trs & tr0 & Hfull & E0 & H). exists trs, tr0. split; [exact Hfull|]. split; [exact E0|].
    intros n a x Hn Hl Hf Hg. destruct H as [(Hq & _)|(m & Hm & Hq & H)].
    - exfalso. destruct (Hq n Hn) as [H _]. exact (H a x Hl Hf).
    - assert (Hmn : m <= n). { destruct (le_lt_dec m n) as [?|Hlt]; [assumption|]. exfalso. destruct (Hq n Hlt) as [H' _]. exact (H' a x Hl Hf). }
      destruct H as [(Hex & asr & Hrep & ->)|(Hnf & (b & p & He) & _)].
      + exists m, asr. split; [exact Hmn|]. split; [reflexivity|]. split; [exact Hrep|]. split; [|exact Hex].
        intros i b y Hi Hlb. now apply (Hq i Hi).
      + exfalso. destruct (Nat.eq_dec m n) as [->|Hne]; [exact (Hnf a x Hl Hf)|]. apply (Hg m b p); [lia|exact He].
  Qed.

  (** Reported assertions are real: something fails at the reported row and nothing happened earlier. *)
  Theorem C34_reports_sound unsafe nd remain r asr : step unsafe nd remain = Some r -> sr_asserts r = Some asr ->
    sr_child r = [] /\ asr <> [] /\ exists trs n, full_traces agents trace_of nd remain trs /\ quiet agents e_cond e_path trs (s_mode nd) n /\
      reports agents e_cond trs (s_mode nd) n asr /\ (unsafe = false -> sr_trace r = map (firstn n) trs).
  Proof.
    intros E Ha. destruct (C31_first_event_partial _ _ _ E) as (trs & tr0 & Hfull & _ & [(_ & ->)|(n & _ & Hq & [((a & x & Hl & Hf) & asr' & Hrep & ->)|(_ & _ & [(_ & ->)|(_ & _ & Hn & _)])])]); [easy| |easy|congruence].
    cbn [sr_asserts] in Ha. injection Ha as <-. split; [reflexivity|]. split.
    - destruct Hrep as [_ R2]. destruct (R2 a x Hl Hf) as (ls & Hin). intros ->. exact Hin.
    - exists trs, n. split; [exact Hfull|]. split; [exact Hq|]. split; [exact Hrep|]. intros ->. reflexivity.
  Qed.

  (** C32.  Between a node and a child: the child starts at the (rounded) time of the last row of the node's trace; an
      agent that does not move inherits the rest of its trajectory, from that last row on. *)
  Theorem C32_handover unsafe nd remain r ch : step unsafe nd remain = Some r -> In ch (sr_child r) ->
    exists trs, full_traces agents trace_of nd remain trs /\
    (exists pre row t, nth_error (sr_trace r) 0 = Some (pre ++ [t :: row]) /\ s_start ch = py_round digits t) /\
    forall a, a < length agents -> exists pre row post,
      nth_error trs a = Some (pre ++ row :: post) /\ nth_error (sr_trace r) a = Some (pre ++ [row]) /\
      (nth_error (s_trace ch) a = Some None \/ nth_error (s_trace ch) a = Some (Some (row :: post)) /\ nth_error (s_init ch) a = Some (tl row)).
  Proof.
    intros E Hch. destruct (C31_first_event_partial _ _ _ E) as (trs & tr0 & [Lt Hfull] & _ & [(_ & ->)|(n & _ & _ & [(_ & asr & _ & ->)|(_ & _ & [(_ & ->)|(_ & Htr & _ & H & _)])])]); [easy|easy|easy|].
    exists trs. split; [split; assumption|]. destruct (H ch Hch) as (mv & Hmv & (_ & _ & _ & Hc & (tr & row & t & E0 & Er & Et & Es) & _)).
    assert (Cut : forall a tr row, nth_error trs a = Some tr -> nth_error tr n = Some row ->
              tr = firstn n tr ++ row :: skipn (S n) tr /\ skipn n tr = row :: skipn (S n) tr /\ nth_error (sr_trace r) a = Some (firstn n tr ++ [row])).
    { clear -Htr. intros a tr row Ea Er. assert (Es : skipn n tr = row :: skipn (S n) tr).
      { clear -Er. revert n Er. induction tr as [|x tr IH]; intros [|n] Er; cbn in *; try discriminate; [now injection Er as ->|now apply IH]. }
      split; [|split; [exact Es|]].
      - rewrite <- Es. symmetry. apply firstn_skipn.
      - rewrite Htr, nth_error_map, Ea. cbn [option_map]. f_equal. rewrite Nat.add_1_r. clear -Er. revert n Er.
        induction tr as [|x tr IH]; intros [|n] Er; cbn in *; try discriminate; [now injection Er as ->|]. f_equal. now apply IH. }
    split.
    - destruct (Cut _ _ _ E0 Er) as (_ & _ & C). destruct row as [|t0 row]; [discriminate|]. cbn in Et. injection Et as ->. eauto.
    - intros a La. rewrite <- Lt in La. specialize (Hc a La). specialize (Hmv a). destruct (mv a) as [[d s]|].
      + destruct Hmv as (ag & js & m & s0 & c & _ & _ & _ & (tr1 & row1 & E1 & E2 & _) & _). destruct (Cut _ _ _ E1 E2) as (C1 & C2 & C3).
        exists (firstn n tr1), row1, (skipn (S n) tr1). rewrite <- C1. split; [exact E1|]. split; [exact C3|]. left. tauto.
      + destruct Hc as (_ & (s & (tr1 & row1 & E1 & E2 & ->) & Hi) & (tr2 & E3 & Ht)). rewrite E1 in E3. injection E3 as <-. destruct (Cut _ _ _ E1 E2) as (C1 & C2 & C3).
        exists (firstn n tr1), row1, (skipn (S n) tr1). rewrite <- C1. split; [exact E1|]. split; [exact C3|]. right. rewrite <- C2. auto.
  Qed.

  (** An agent that moved starts afresh at the child's start time, if its simulation function starts at time 0. *)
  Theorem C32_moved_starts_at unsafe ch remain r a row rest :
    step unsafe ch remain = Some r -> nth_error (s_trace ch) a = Some None ->
    (forall m i T t, trace_of a m i T = Some t -> exists t0 s rest, t = (t0 :: s) :: rest /\ (t0 == 0)%Q) ->
    nth_error (sr_trace r) a = Some (row :: rest) -> exists t s, row = t :: s /\ (t == s_start ch)%Q.
  Proof.
    intros E Hn H0 Hrow. destruct (C31_first_event_partial _ _ _ E) as (trs & tr0 & [Lt Hfull] & _ & H).
    assert (Hpre : exists tr k, nth_error trs a = Some tr /\ (row :: rest = firstn k tr)).
    { assert (K : forall k, sr_trace r = map (firstn k) trs -> exists tr k, nth_error trs a = Some tr /\ (row :: rest = firstn k tr)).
      { intros k Ek. rewrite Ek, nth_error_map in Hrow. destruct (nth_error trs a) as [tr|]; [|discriminate]. exists tr, k. injection Hrow as ->. auto. }
      assert (K0 : sr_trace r = trs -> exists tr k, nth_error trs a = Some tr /\ (row :: rest = firstn k tr)).
      { intros Ek. rewrite Ek in Hrow. exists (row :: rest), (length (row :: rest)). now rewrite firstn_all. }
      destruct H as [(_ & ->)|(n & _ & _ & [(_ & asr & _ & ->)|(_ & _ & [(_ & ->)|(_ & Htr & _)])])].
      - now apply K0.
      - destruct unsafe; [now apply K0|now apply (K n)].
      - now apply K0.
      - exact (K _ Htr). }
    destruct Hpre as (tr & k & Etr & Epre). assert (La : a < length agents) by (rewrite <- Lt; apply nth_error_Some; congruence).
    destruct (Hfull a La) as [(t & E1 & _)|(m & i & t & _ & _ & _ & Et & E2)]; [congruence|]. destruct (H0 _ _ _ _ Et) as (t0 & s & rs & -> & Hz).
    rewrite Etr in E2. injection E2 as ->. destruct k as [|k]; [discriminate|]. cbn [map firstn shift_row] in Epre.
    cbn in Epre. injection Epre as -> _. eexists _, _. split; [reflexivity|]. rewrite Hz. ring.
  Qed.

  (** Along a chain of nodes in which agent [a] never moves. *)
  Inductive chain (a : nat) : snode -> list strace -> snode -> Prop :=
  | chain_nil nd : chain a nd [] nd
  | chain_cons unsafe nd remain r ch cut inh cs nd' : step unsafe nd remain = Some r -> In ch (sr_child r) ->
      nth_error (sr_trace r) a = Some cut -> nth_error (s_trace ch) a = Some (Some inh) ->
      chain a ch cs nd' -> chain a nd (cut :: cs) nd'.

  Lemma chain_glue a nd cs nd' : chain a nd cs nd' -> forall T, nth_error (s_trace nd) a = Some (Some T) -> a < length agents ->
    exists inh, nth_error (s_trace nd') a = Some (Some inh) /\ glue cs inh = T.
  Proof.
    induction 1 as [nd|unsafe nd remain r ch cut inh cs nd' E Hch Ecut Einh Hc IH]; intros T ET La; [exists T; auto|].
    destruct (IH inh Einh La) as (inh' & E' & G). exists inh'. split; [exact E'|]. cbn [glue]. rewrite G.
    destruct (C32_handover _ _ _ _ E Hch) as (trs & [Lt Hfull] & _ & H). destruct (H a La) as (pre & row & post & E1 & E2 & E3).
    rewrite Ecut in E2. injection E2 as ->. destruct E3 as [E3|[E3 _]]; [congruence|]. rewrite Einh in E3. injection E3 as ->. cbn [tl].
    rewrite <- app_assoc. cbn [app]. destruct (Hfull a La) as [(t & F1 & F2)|(m & i & t & F1 & _)]; [|congruence]. congruence.
  Qed.

  (** Gluing the traces of the nodes and what is left gives back the original trajectory. *)
  Theorem C32_glued a unsafe nd remain r ch cut inh cs nd' : a < length agents ->
    step unsafe nd remain = Some r -> In ch (sr_child r) -> nth_error (sr_trace r) a = Some cut -> nth_error (s_trace ch) a = Some (Some inh) ->
    chain a ch cs nd' ->
    exists trs T rest, full_traces agents trace_of nd remain trs /\ nth_error trs a = Some T /\
      nth_error (s_trace nd') a = Some (Some rest) /\ glue (cut :: cs) rest = T.
  Proof.
    intros La E Hch Ecut Einh Hc. destruct (chain_glue Hc Einh La) as (rest & Er & G).
    destruct (C32_handover _ _ _ _ E Hch) as (trs & Hfull & _ & H). destruct (H a La) as (pre & row & post & E1 & E2 & E3).
    exists trs, (pre ++ row :: post), rest. split; [exact Hfull|]. split; [exact E1|]. split; [exact Er|]. cbn [glue]. rewrite G.
    rewrite Ecut in E2. injection E2 as ->. destruct E3 as [E3|[E3 _]]; [congruence|]. rewrite Einh in E3. injection E3 as ->. cbn [tl].
    now rewrite <- app_assoc.
  Qed.

  (** How far the start time can be from the time of the row: not at all for times on the rounding grid. *)
  Theorem C32_start_time unsafe nd remain r ch : step unsafe nd remain = Some r -> In ch (sr_child r) ->
    exists pre row t, nth_error (sr_trace r) 0 = Some (pre ++ [t :: row]) /\ (Qabs (s_start ch - t) <= (1 # 2) / pow10 digits)%Q /\
      (forall z, (t == inject_Z z / pow10 digits)%Q -> (s_start ch == t)%Q).
  Proof.
    intros E Hch. destruct (C32_handover _ _ _ _ E Hch) as (trs & _ & (pre & row & t & E1 & E2) & _). exists pre, row, t. split; [exact E1|]. rewrite E2.
    split; [apply py_round_close|]. intros z Hz. rewrite (py_round_comp digits Hz), Hz. apply py_round_decimal.
  Qed.
End Props.

Print Assumptions C31_first_event_partial.
Print Assumptions C33_simulate_respects_map.
Print Assumptions C33_simulate_keeps_permitted.
Print Assumptions C34_reported_partial.
Print Assumptions C34_reports_sound.
Print Assumptions C32_handover.
Print Assumptions C32_moved_starts_at.
Print Assumptions C32_glued.
Print Assumptions C32_start_time.

(** ** A concrete scenario: agents on a line with position [x].  A path is enabled in its source mode when the
    position has reached a bound; an assertion is that the position stays below a bound. *)
Section Example_line.
  Record lpath := { lp_var : word; lp_src : word; lp_from : Q; lp_val : value }.
  Definition pos (js : list vec) (a : nat) : Q := nth 0 (nth a js []) 0%Q.
  Definition l_path (ms : list mode) (js : list vec) (a : nat) (p : lpath) : option bool :=
    do m <- nth_error ms a; Some (mode_eqb m [lp_src p] && Qle_bool (lp_from p) (pos js a)).
  Definition l_cond (ms : list mode) (js : list vec) (a : nat) (c : option Q) : option bool :=
    Some (match c with None => true | Some b => negb (Qle_bool b (pos js a)) end).
  Definition l_val (ms : list mode) (js : list vec) (a : nat) (p : lpath) : option value := Some (lp_val p).
  Definition line (ps : list lpath) (asr : list (word * option Q * option Q)) (tys : list word) : sagent lpath (option Q) :=
    {| sa_logic := {| has_args := true; d_asserts := asr; d_paths := ps; d_types := tys |}; sa_disc := [w "mode"]; sa_cont := [w "x"] |}.
  (** Three rows, one unit apart, moving by one. *)
  Definition walk (a : nat) (m : mode) (s : vec) (T : Q) : option strace :=
    match s with [x] => Some [[0; x]; [1; x + 1]; [2; x + 2]]%Q | _ => None end.
  Definition l_step (ags : list (sagent lpath (option Q))) maph := simulate_one lp_var ags l_cond l_path l_val maph walk 2.
  Definition begin (n : nat) : snode := mk_snode (repeat None n) (repeat [0%Q] n) (repeat [w "A"] n) 0 0.
  Definition free : option word -> option mode -> option mode -> option word := fun _ _ _ => None.
  Definition moding := [w "Mode"].

  Lemma line_named ags : Forall (fun ag => exists ps asr tys, ag = line ps asr tys) ags ->
    forall a ag, nth_error ags a = Some ag -> NoDup (sa_disc ag) /\ NoDup (sa_cont ag).
  Proof.
    intros H a ag E. apply nth_error_In in E. rewrite Forall_forall in H. destruct (H ag E) as (ps & asr & tys & ->). cbn.
    split; (constructor; [intros []|constructor]).
  Qed.

  (** Two agents: the first moves at row 1, the second has an assertion and a path of its own and stays. *)
  Definition mover := line [{| lp_var := w "mode"; lp_src := w "A"; lp_from := 1; lp_val := VName (w "B") |}] [] moding.
  Definition watch := line [{| lp_var := w "mode"; lp_src := w "A"; lp_from := 9; lp_val := VName (w "B") |}] [(w "safe", None, Some 2%Q)] moding.

  Example ex_children : exists r c, l_step [mover; watch] free false (begin 2) 2 = Some r /\ sr_child r = [c] /\
    s_mode c = [[w "B"]; [w "A"]] /\ s_trace c = [None; Some [[1; 0 + 1]; [2; 0 + 2]]%Q] /\ s_height c = 1 /\ (s_start c == 1)%Q.
  Proof. eexists _, _. split; [reflexivity|]. split; [reflexivity|]. repeat split. Qed.

  Example ex_assert : exists r asr, l_step [watch] free false (begin 1) 2 = Some r /\ sr_asserts r = Some asr /\ asr = [(0, [w "safe"])] /\
    sr_child r = [] /\ sr_trace r = [[[0; 0]; [1; 0 + 1]]%Q].
  Proof.
    eexists _, _. split; [reflexivity|]. split; [reflexivity|]. split; [reflexivity|]. split; [reflexivity|].
    cbn. repeat f_equal.
  Qed.

  (** C34 refuted: the same assertion of an agent that has no path is not reported. *)
  Theorem C34_refuted : exists ag r trs x, l_step [ag] free false (begin 1) 2 = Some r /\
    full_traces [ag] walk (begin 1) 2 trs /\ fails [ag] l_cond trs (s_mode (begin 1)) 2 0 x /\ sr_asserts r = None /\ sr_child r = [].
  Proof.
    exists (line [] [(w "safe", None, Some 2%Q)] moding), (mk_sresult [] (map (fun t => map (shift_row 0) t) [[[0; 0]; [1; 0 + 1]; [2; 0 + 2]]%Q]) None),
      (map (fun t => map (shift_row 0) t) [[[0; 0]; [1; 0 + 1]; [2; 0 + 2]]%Q]), (w "safe", None, Some 2%Q).
    split; [reflexivity|]. split; [|split; [|split; reflexivity]].
    - split; [reflexivity|]. intros a La. destruct a as [|a]; [|cbn in La; lia]. right. exists [w "A"], [0%Q], [[0; 0]; [1; 0 + 1]; [2; 0 + 2]]%Q. repeat split.
    - eexists _, [[0 + 2]]%Q. split; [reflexivity|]. split; [now left|]. split; [|split; reflexivity].
      split; [reflexivity|]. intros a La. destruct a as [|a]; [|cbn in La; lia]. exists [0 + 2]%Q. split; [reflexivity|].
      eexists _, _. split; [reflexivity|]. split; reflexivity.
  Qed.

  (** C31 refuted (1): at row 1 the guard for "B" holds, but the map does not allow that change of track; the
      scan ends there, although "C", which the map allows, is enabled from row 2 on: no child. *)
  Definition to (v : word) (from : Q) (d : word) : lpath := {| lp_var := v; lp_src := w "A"; lp_from := from; lp_val := VName d |}.
  Definition only_C : option word -> option mode -> option mode -> option word :=
    fun _ _ d => match d with Some [n] => if word_eqb n (w "C") then None else Some (w "T") | _ => Some (w "T") end.
  Definition rejecting := line [to (w "mode") 1 (w "B"); to (w "mode") 2 (w "C")] [] moding.

  Lemma walked_full (ag : sagent lpath (option Q)) : full_traces [ag] walk (begin 1) 2 (map (fun t => map (shift_row 0) t) [[[0; 0]; [1; 0 + 1]; [2; 0 + 2]]%Q]).
  Proof. split; [reflexivity|]. intros a La. destruct a as [|a]; [|cbn in La; lia]. right. exists [w "A"], [0%Q], [[0; 0]; [1; 0 + 1]; [2; 0 + 2]]%Q. repeat split. Qed.

  Theorem C31_rejected_refuted : exists r trs, l_step [rejecting] only_C false (begin 1) 2 = Some r /\
    full_traces [rejecting] walk (begin 1) 2 trs /\
    sr_child r = [] /\ sr_asserts r = None /\
    can_move lp_var [rejecting] l_path l_val only_C trs (s_mode (begin 1)) 2 0 [w "C"] [0 + 2]%Q.
  Proof.
    exists (mk_sresult [] (map (fun t => map (shift_row 0) t) [[[0; 0]; [1; 0 + 1]; [2; 0 + 2]]%Q]) None), (map (fun t => map (shift_row 0) t) [[[0; 0]; [1; 0 + 1]; [2; 0 + 2]]%Q]).
    split; [reflexivity|]. split; [apply walked_full|]. split; [reflexivity|]. split; [reflexivity|].
    assert (Hrow : at_row (map (fun t => map (shift_row 0) t) [[[0; 0]; [1; 0 + 1]; [2; 0 + 2]]%Q]) 2 0 [0 + 2]%Q)
      by (eexists _, _; split; [reflexivity|]; split; reflexivity).
    assert (Hall : all_at_row (map (fun t => map (shift_row 0) t) [[[0; 0]; [1; 0 + 1]; [2; 0 + 2]]%Q]) 2 [[0 + 2]]%Q).
    { split; [reflexivity|]. intros a La. destruct a as [|a]; [|cbn in La; lia]. exists [0 + 2]%Q. split; [reflexivity|exact Hrow]. }
    assert (Hen : forall p, In p (d_paths (sa_logic rejecting)) -> enabled [rejecting] l_path (map (fun t => map (shift_row 0) t) [[[0; 0]; [1; 0 + 1]; [2; 0 + 2]]%Q]) (s_mode (begin 1)) 2 0 p).
    { intros p Hp. exists rejecting, [[0 + 2]]%Q. split; [reflexivity|]. split; [reflexivity|]. split; [exact Hp|]. split; [exact Hall|].
      destruct Hp as [<-|[<-|[]]]; reflexivity. }
    exists rejecting, [[0 + 2]]%Q, [w "A"], [0 + 2]%Q, [to (w "mode") 2 (w "C")].
    split; [reflexivity|]. split; [exact Hall|]. split; [reflexivity|]. split; [exact Hrow|]. split; [|split; [|split]].
    - split; [discriminate|]. split; [constructor; [intros []|constructor]|]. split.
      + intros p [<-|[]]. apply Hen. right. now left.
      + intros p (ag & js & Ea & _ & Hin & _). cbn in Ea. injection Ea as <-. exists (to (w "mode") 2 (w "C")). split; [now left|].
        destruct Hin as [<-|[<-|[]]]; reflexivity.
    - split; [reflexivity|]. intros [|k].
      + left. exists (to (w "mode") 2 (w "C")), (w "C"). split; [now left|]. repeat split.
      + right. split; [|destruct k; reflexivity]. intros p _ _. cbn. destruct k; discriminate.
    - split; [reflexivity|]. intros k. right. split; [|reflexivity]. intros p [<-|[]]. discriminate.
    - right. reflexivity.
  Qed.

  (** C31 refuted (2): two enabled paths set [x] to different values without changing the mode: two possible moves, but
      one child. *)
  Definition setx (q : Q) : lpath := {| lp_var := w "x"; lp_src := w "A"; lp_from := 1; lp_val := VNum q |}.
  Definition jumper := line [setx 5; setx 7] [] moding.
  Theorem C31_same_destination_refuted : exists r trs, l_step [jumper] free false (begin 1) 2 = Some r /\
    full_traces [jumper] walk (begin 1) 2 trs /\
    (forall q, q = 5%Q \/ q = 7%Q -> can_move lp_var [jumper] l_path l_val free trs (s_mode (begin 1)) 1 0 [w "A"] [q]) /\
    exists c, sr_child r = [c] /\ s_init c = [[5%Q]].
  Proof.
    eexists _, (map (fun t => map (shift_row 0) t) [[[0; 0]; [1; 0 + 1]; [2; 0 + 2]]%Q]). split; [reflexivity|]. split; [apply walked_full|]. split.
    - intros q Hq.
      assert (Hrow : at_row (map (fun t => map (shift_row 0) t) [[[0; 0]; [1; 0 + 1]; [2; 0 + 2]]%Q]) 1 0 [0 + 1]%Q)
        by (eexists _, _; split; [reflexivity|]; split; reflexivity).
      assert (Hall : all_at_row (map (fun t => map (shift_row 0) t) [[[0; 0]; [1; 0 + 1]; [2; 0 + 2]]%Q]) 1 [[0 + 1]]%Q).
      { split; [reflexivity|]. intros a La. destruct a as [|a]; [|cbn in La; lia]. exists [0 + 1]%Q. split; [reflexivity|exact Hrow]. }
      exists jumper, [[0 + 1]]%Q, [w "A"], [0 + 1]%Q, [setx q].
      split; [reflexivity|]. split; [exact Hall|]. split; [reflexivity|]. split; [exact Hrow|]. split; [|split; [|split]].
      + split; [discriminate|]. split; [constructor; [intros []|constructor]|]. split.
        * intros p [<-|[]]. exists jumper, [[0 + 1]]%Q. split; [reflexivity|]. split; [reflexivity|]. split; [|split; [exact Hall|reflexivity]].
          cbn. destruct Hq as [->| ->]; auto.
        * intros p (ag & js & Ea & _ & Hin & _). cbn in Ea. injection Ea as <-. exists (setx q). split; [now left|].
          destruct Hin as [<-|[<-|[]]]; reflexivity.
      + split; [reflexivity|]. intros k. right. split; [|reflexivity]. intros p [<-|[]]. discriminate.
      + split; [reflexivity|]. intros [|k].
        * left. exists (setx q), q. split; [now left|]. repeat split.
        * right. split; [|destruct k; reflexivity]. intros p _ _. cbn. destruct k; discriminate.
      + left. split; reflexivity.
    - eexists. split; reflexivity.
  Qed.
End Example_line.
