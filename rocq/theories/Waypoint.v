(** Waypoints on three-dimensional lanes: [check_guard_box], [get_next_point] and [get_curr_waypoint] of
    verse/map/lane_map_3d.py.

    Simplifications: numbers are real numbers (Lane3d.v); a segment object is the name of its lane and its index there (objects
    of different lanes are different); a waypoint, a list of six numbers, is a pair of points; a call that raises returns [None]
    together with the state it leaves behind; the numpy division by a zero distance gives nan, which is never larger than
    anything. *)
From Coq Require Import Ascii String Reals.
From Verif Require Import Base PyText Dict Lane3d.
Set Implicit Arguments.
Open Scope R_scope.

Notation waypoint := (v3 * v3)%type.

(** The attributes [curr_wp], [curr_seg] and [wps], lane_map_3d.py:28-30; [Some None] is a stored Python None *)
Record planner := mk_planner {
  curr_wp : dict word waypoint;
  curr_seg : dict word (option (word * nat));
  wps : dict word (list waypoint) }.
Definition new_planner : planner := mk_planner [] [] [].

Definition set_seg (st : planner) (agent : word) (s : option (word * nat)) : planner :=
  mk_planner (curr_wp st) (dset word_eqb agent s (curr_seg st)) (wps st).
(** lane_map_3d.py:284-288 *)
Definition record_wp (st : planner) (agent : word) (wp : waypoint) : planner :=
  mk_planner (dset word_eqb agent wp (curr_wp st)) (curr_seg st) (dappend word_eqb agent wp (wps st)).

(** [rate], lane_map_3d.py:257 *)
Definition rate : R := 7 / 10.
(** The next longitudinal and lateral coordinates, lane_map_3d.py:258-265 *)
Definition advance (est_len longitudinal lateral : R) : R * R :=
  if Rle_dec (lateral / rate) est_len then (longitudinal + sqrt (est_len * est_len - lateral * lateral), 0)
  else (longitudinal + est_len * sqrt (1 - rate * rate), lateral - rate * est_len).

(** The loop over the possible next segments, lane_map_3d.py:270-277.  The accumulator is ([max_in], [next_seg]); [None] as the
    former is minus infinity. *)
Fixpoint choose (segs : list segment) (candidates : list nat) (curr_point : v3) (lateral theta : R) (velocity : v3)
  (acc : option R * option nat) : option (option R * option nat) :=
  match candidates with
  | [] => Some acc
  | i :: rest =>
    do s <- nth_error segs i;
    do q <- position s 0 lateral theta;
    let acc' :=
      match unit (vsub q curr_point) with
      | None => acc
      | Some delta =>
        let d := dot delta velocity in
        match fst acc with
        | None => (Some d, Some i)
        | Some m => if Rlt_dec m d then (Some d, Some i) else acc
        end
      end in
    choose segs rest curr_point lateral theta velocity acc'
  end.

Section Map.
  (** [lane_dict] *)
  Variable lanes : dict word (list segment).

  (** [get_next_point(lane, agent_id, pos, velocity, t_v_pair)], lane_map_3d.py:237-290.  [pos] is [None] when it is not a
      numpy array. *)
  Definition get_next_point (st : planner) (lane agent : word) (pos : option v3) (velocity : v3) (t v : R) : planner * option waypoint :=
    let est_len := t * v in
    match (match pos with Some p => Some p | None => option_map snd (dget word_eqb agent (curr_wp st)) end) with
    | None => (st, None)
    | Some curr_point =>
      match (do segs <- dget word_eqb lane lanes; do r <- get_lane_segment segs curr_point; Some (segs, r)) with
      | None => (st, None)
      | Some (segs, (found, possible)) =>
        let '(st1, seg) :=
          match dget word_eqb agent (curr_seg st) with
          | None => (set_seg st agent (option_map (pair lane) found), found)
          | Some (Some (ln, i)) => (st, if word_eqb ln lane && existsb (Nat.eqb i) possible then Some i else found)
          | Some None => (st, found)
          end in
        match (do i <- seg; do s <- nth_error segs i; do c <- local_coordinates s curr_point; Some (s, c)) with
        | None => (st1, None)
        | Some (s, (longitudinal, lateral, theta)) =>
          let (next_longitudinal, next_lateral) := advance est_len longitudinal lateral in
          match position s next_longitudinal next_lateral theta with
          | None => (st1, None)
          | Some next_point =>
            match (if Rlt_dec (seg_length s) next_longitudinal then
                     do r <- get_lane_segment segs next_point;
                     do a <- choose segs (snd r) curr_point lateral theta velocity (None, fst r);
                     do j <- snd a;
                     do n <- nth_error segs j;
                     do q <- position n 0 lateral theta;
                     Some (Some j, q)
                   else Some (None, next_point)) with
            | None => (st1, None)
            | Some (next_seg, dest) =>
              let st2 := match next_seg with Some j => set_seg st1 agent (Some (lane, j)) | None => st1 end in
              (record_wp st2 agent (curr_point, dest), Some (curr_point, dest))
            end
          end
        end
      end
    end.

  (** A call, and a history of calls with their results. *)
  Record call := mk_call { c_lane : word; c_agent : word; c_pos : option v3; c_velocity : v3; c_t : R; c_v : R }.
  Definition call_of (st : planner) (c : call) : planner * option waypoint :=
    get_next_point st (c_lane c) (c_agent c) (c_pos c) (c_velocity c) (c_t c) (c_v c).
  Fixpoint calls (st : planner) (cs : list call) : planner * list (option waypoint) :=
    match cs with
    | [] => (st, [])
    | c :: rest => let (st1, r) := call_of st c in let (st2, rs) := calls st1 rest in (st2, r :: rs)
    end.
End Map.

(** [get_curr_waypoint(agent_id)], lane_map_3d.py:228-229; [None]: a KeyError *)
Definition get_curr_waypoint (st : planner) (agent : word) : option (list waypoint) := dget word_eqb agent (wps st).

(** The loop of [check_guard_box], lane_map_3d.py:233-236; [None]: an IndexError *)
Fixpoint inside (dest state box_side : list R) : option bool :=
  match dest with
  | [] => Some true
  | d :: dest' =>
    match state, box_side with
    | x :: state', b :: box' =>
      if Rlt_dec x (d - b / 2) then Some false else if Rlt_dec (d + b / 2) x then Some false else inside dest' state' box'
    | _, _ => None
    end
  end.
(** [check_guard_box(agent_id, state, box_side)], lane_map_3d.py:231-236 *)
Definition check_guard_box (st : planner) (agent : word) (state box_side : list R) : option bool :=
  do wp <- dget word_eqb agent (curr_wp st);
  inside [vx (snd wp); vy (snd wp); vz (snd wp)] state box_side.
