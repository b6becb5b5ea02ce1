(** Lemmas about the waypoint planner. *)
From Coq Require Import Ascii String Reals Lra Lia Psatz.
From Verif Require Import Base PyText Dict ScanProofs Angle AngleProofs Lane3d Lane3dSpec Lane3dProofs Lane3dStraight Lane3dProps Lane3dCircular Lane3dPathProps Waypoint WaypointSpec.
Open Scope R_scope.

(** What an agent's calls depend on. *)
Definition view (st : planner) (agent : word) : option waypoint * option (option (word * nat)) :=
  (dget word_eqb agent (curr_wp st), dget word_eqb agent (curr_seg st)).

(** The planner, as a function of that: the new segment, if it is set, and the result. *)
Definition core (lanes : dict word (list segment)) (vw : option waypoint * option (option (word * nat)))
  (lane : word) (pos : option v3) (velocity : v3) (t v : R) : option (option (word * nat)) * option waypoint :=
  match (match pos with Some p => Some p | None => option_map snd (fst vw) end) with
  | None => (None, None)
  | Some p =>
    match (do segs <- dget word_eqb lane lanes; do r <- get_lane_segment segs p; Some (segs, r)) with
    | None => (None, None)
    | Some (segs, (found, possible)) =>
      let '(upd, seg) :=
        match snd vw with
        | None => (Some (option_map (pair lane) found), found)
        | Some (Some (ln, i)) => (None, if word_eqb ln lane && existsb (Nat.eqb i) possible then Some i else found)
        | Some None => (None, found)
        end in
      match (do i <- seg; do s <- nth_error segs i; do c <- local_coordinates s p; Some (s, c)) with
      | None => (upd, None)
      | Some (s, (l, r, th)) =>
        let (l', r') := advance (t * v) l r in
        match position s l' r' th with
        | None => (upd, None)
        | Some q =>
          match (if Rlt_dec (seg_length s) l' then
                   do x <- get_lane_segment segs q;
                   do a <- choose segs (snd x) p r th velocity (None, fst x);
                   do j <- snd a;
                   do n <- nth_error segs j;
                   do q' <- position n 0 r th;
                   Some (Some j, q')
                 else Some (None, q)) with
          | None => (upd, None)
          | Some (next, dest) => (match next with Some j => Some (Some (lane, j)) | None => upd end, Some (p, dest))
          end
        end
      end
    end
  end.

Definition put (st : planner) (agent : word) (u : option (option (word * nat)) * option waypoint) : planner :=
  let st1 := match fst u with Some s => set_seg st agent s | None => st end in
  match snd u with Some wp => record_wp st1 agent wp | None => st1 end.

Lemma dset_dset {V} (k : word) (a b : V) d : dset word_eqb k b (dset word_eqb k a d) = dset word_eqb k b d.
Proof.
  unfold dset. induction d as [| [k' v] d IH]; cbn; [rewrite (proj2 (word_eqb_iff k k) eq_refl); reflexivity |].
  destruct (word_eqb k k') eqn:E; cbn; rewrite E; [reflexivity | rewrite IH; reflexivity].
Qed.

Lemma next_core lanes st lane agent pos vel t v :
  get_next_point lanes st lane agent pos vel t v
  = let u := core lanes (view st agent) lane pos vel t v in (put st agent u, snd u).
Proof.
  unfold get_next_point, core, view. cbn [fst snd]. set (cp := match pos with Some _ => _ | None => _ end).
  destruct cp as [p |]; [| reflexivity]. destruct (obind _ _) as [[segs [found possible]] |]; [| reflexivity].
  set (sel := match dget word_eqb agent (curr_seg st) with None => (set_seg st agent (option_map (pair lane) found), found) | _ => _ end).
  set (sel' := match dget word_eqb agent (curr_seg st) with None => (Some (option_map (pair lane) found), found) | _ => _ end).
  assert (S : snd sel = snd sel' /\ fst sel = match fst sel' with Some s => set_seg st agent s | None => st end).
  { unfold sel, sel'. destruct (dget word_eqb agent (curr_seg st)) as [[[ln i] |] |]; cbn; auto. }
  destruct S as [S1 S2]. destruct sel as [st1 seg], sel' as [upd seg']. cbn [fst snd] in S1, S2. subst seg' st1.
  destruct (obind _ _) as [[s [[l r] th]] |]; [| reflexivity]. destruct (advance _ _ _) as [l' r'].
  destruct (position s l' r' th) as [q |]; [| reflexivity]. destruct (if Rlt_dec _ _ then _ else _) as [[next dest] |]; [| reflexivity].
  cbn [fst snd put]. destruct next as [j |]; unfold put; cbn [fst snd]; [| reflexivity]. destruct upd; [| reflexivity].
  unfold set_seg; cbn [curr_wp curr_seg wps]. rewrite dset_dset. reflexivity.
Qed.

Lemma view_put st agent u : view (put st agent u) agent
  = (match snd u with Some wp => Some wp | None => fst (view st agent) end, match fst u with Some s => Some s | None => snd (view st agent) end).
Proof.
  destruct u as [[s |] [wp |]]; unfold put, view, record_wp, set_seg, dset; cbn [fst snd curr_wp curr_seg];
    rewrite ?(dget_alter_same word_eqb word_eqb_iff); reflexivity.
Qed.
Lemma view_other st agent u b : agent <> b -> view (put st agent u) b = view st b /\ dget word_eqb b (wps (put st agent u)) = dget word_eqb b (wps st).
Proof.
  intros N. destruct u as [[s |] [wp |]]; unfold put, view, record_wp, set_seg, dset, dappend; cbn [fst snd curr_wp curr_seg wps];
    rewrite ?(dget_alter_other word_eqb word_eqb_iff _ _ N); split; reflexivity.
Qed.
Lemma wps_put st agent u : dget word_eqb agent (wps (put st agent u)) =
  match snd u with
  | Some wp => Some (match dget word_eqb agent (wps st) with Some l => l ++ [wp] | None => [wp] end)
  | None => dget word_eqb agent (wps st)
  end.
Proof.
  destruct u as [[s |] [wp |]]; unfold put, record_wp, set_seg, dappend; cbn [fst snd wps];
    rewrite ?(dget_alter_same word_eqb word_eqb_iff); reflexivity.
Qed.
