(** What a decision logic means: running it as Python. *)
From Coq Require Import Ascii String.
From Verif Require Import Base Dict PyText Parser.
Set Implicit Arguments.
Open Scope nat_scope.

Section Sem.
  (** Values and primitive operations; [None] is an exception. *)
  Variable V : Type.
  Variable truth : V -> bool.
  Variable v_bool : bool -> V.
  Variable v_const : word -> V.
  Variable v_attr : V -> word -> option V.
  Variable v_un : word -> V -> option V.
  Variable v_bin : word -> V -> V -> option V.
  Variable v_cmp : word -> V -> V -> option V.
  Variable v_call : V -> list V -> option V.
  Variable v_items : V -> option (list V).
  Variable fields_of : word -> option (list word).

  (** A variable holds a value, a local object, or a function. *)
  Inductive pyval := PV (v : V) | PO (o : word -> option V) | PF (f : list V -> option V).
  Notation store := (word -> option pyval).
  Definition upd {A} (f : word -> option A) (x : word) (v : A) : word -> option A := fun y => if word_eqb x y then Some v else f y.

  (** Short-circuit evaluation. *)
  Definition shortcut {A : Type} (conj : bool) (f : A -> option V) : list A -> option V :=
    fix go es := match es with
                 | [] => Some (v_bool conj)
                 | [e] => f e
                 | e :: es' => do v <- f e; if Bool.eqb (truth v) conj then go es' else Some v
                 end.
  (** A comparison chain: each operand is evaluated once, up to the first comparison that fails. *)
  Definition chain {A : Type} (f : A -> option V) : V -> list (word * A) -> option V :=
    fix go lv rest := match rest with
                      | [] => None
                      | p :: rest' => match p with (o, r) =>
                        do rv <- f r;
                        do c <- v_cmp o lv rv;
                        match rest' with [] => Some c | _ => if truth c then go rv rest' else Some c end
                        end
                      end.
  (** [any]/[all] over the items; [keep] is the filter. *)
  Fixpoint quantify (ex : bool) (keep elt : V -> option V) (items : list V) : option V :=
    match items with
    | [] => Some (v_bool (negb ex))
    | u :: items' =>
      do k <- keep u;
      if truth k then do b <- elt u; if Bool.eqb (truth b) ex then Some (v_bool ex) else quantify ex keep elt items'
      else quantify ex keep elt items'
    end.

  (** The value of an expression in a store. *)
  Fixpoint ev (G : store) (e : pex) {struct e} : option V :=
    match e with
    | EConst c => Some (v_const c)
    | EName x | EHole x => match G x with Some (PV v) => Some v | _ => None end
    | EAttr e' a =>
      match (match e' with EName x => match G x with Some (PO o) => Some o | _ => None end | _ => None end) with
      | Some o => o a
      | None => do v <- ev G e'; v_attr v a
      end
    | ENot e => do v <- ev G e; Some (v_bool (negb (truth v)))
    | EUn o e => do v <- ev G e; v_un o v
    | EBin o l r => do a <- ev G l; do b <- ev G r; v_bin o a b
    | EBool b es => shortcut b (ev G) es
    | ECmp l rest => do lv <- ev G l; chain (ev G) lv rest
    | ECall f args =>
      match (match f with EName x => match G x with Some (PF d) => Some d | _ => None end | _ => None end) with
      | Some d => do vs <- omap (ev G) args; d vs
      | None => do fv <- ev G f; do vs <- omap (ev G) args; v_call fv vs
      end
    | EGen ex elt x iter ifs =>
      do l <- ev G iter; do items <- v_items l;
      quantify ex (fun u => shortcut true (ev (upd G x (PV u))) ifs) (fun u => ev (upd G x (PV u)) elt) items
    | ERed ex body x iter =>
      do l <- ev G iter; do items <- v_items l;
      quantify ex (fun _ => Some (v_bool true)) (fun u => ev (upd G x (PV u)) body) items
    | EIte t a b => do v <- ev G t; if truth v then ev G a else ev G b
    end.

  (** A running program: the store, the assignments made so far (variable, attribute, value) and the labels of the assert
      statements that were reached with a false condition, in order.  (Python stops at the first of these; here the run
      goes on.) *)
  Record pst := mk_pst { p_store : store; p_log : list (word * option word * V); p_failed : list (option word) }.

  Definition bind (ps : list word) (vs : list V) (G : store) : store := fold_left (fun G p => upd G (fst p) (PV (snd p))) (combine ps vs) G.

  (** Run statements up to a return. *)
  Definition runs (f : pst -> stmt -> option (pst * option pyval)) : pst -> list stmt -> option (pst * option pyval) :=
    fix go st l := match l with
                   | [] => Some (st, None)
                   | s :: l' => do r <- f st s; match snd r with Some _ => Some r | None => go (fst r) l' end
                   end.

  Fixpoint run_s (st : pst) (s : stmt) {struct s} : option (pst * option pyval) :=
    let G := p_store st in
    match s with
    | SAssign x e => do v <- ev G e; Some (mk_pst (upd G x (PV v)) (p_log st ++ [(x, None, v)]) (p_failed st), None)
    | SSetAttr o a e =>
      match G o with
      | Some (PO ob) => do v <- ev G e; Some (mk_pst (upd G o (PO (upd ob a v))) (p_log st ++ [(o, Some a, v)]) (p_failed st), None)
      | _ => None
      end
    | SCopy x y =>
      (* an object of the class has the variables of the class *)
      match G y, fields_of y with
      | Some (PV v), Some vars =>
        Some (mk_pst (upd G x (PO (fun a => if mem a vars then v_attr v a else None)))
               (p_log st ++ flat_map (fun a => match v_attr v a with Some u => [(x, Some a, u)] | None => [] end) vars)
               (p_failed st), None)
      | _, _ => None
      end
    | SIf t b c => do v <- ev G t; if truth v then runs run_s st b else runs run_s st c
    | SAssert e l => do v <- ev G e; Some (mk_pst G (p_log st) (if truth v then p_failed st else p_failed st ++ [l]), None)
    | SReturn e =>
      match e with
      | EName x => match G x with Some pv => Some (st, Some pv) | None => None end
      | _ => do v <- ev G e; Some (st, Some (PV v))
      end
    | SDef f ps body =>
      Some (mk_pst (upd G f (PF (fun vs =>
                     if length vs =? length ps then
                       do r <- runs run_s (mk_pst (bind ps vs G) [] []) body;
                       match snd r with Some (PV v) => Some v | _ => None end
                     else None))) (p_log st) (p_failed st), None)
    end.
  Definition run_b : pst -> list stmt -> option (pst * option pyval) := runs run_s.

  (** Running the module [pre], then the controller with parameters [ps] on the arguments [vs]. *)
  Definition run (imports : word -> option V) (pre : list stmt) (ps : list word) (vs : list V) (body : list stmt) : option (pst * option pyval) :=
    do g <- run_b (mk_pst (fun x => option_map PV (imports x)) [] []) pre;
    match snd g with
    | None => if length vs =? length ps then run_b (mk_pst (bind ps vs (p_store (fst g))) [] []) body else None
    | Some _ => None
    end.

  (** The value of an extracted expression, given the values of the placeholders. *)
  Definition value_in (r : word -> option V) (e : pex) : option V := ev (fun x => option_map PV (r x)) e.
  Definition holds_in (r : word -> option V) (e : pex) : Prop := exists v, value_in r e = Some v /\ truth v = true.
  Definition fails_in (r : word -> option V) (e : pex) : Prop := exists v, value_in r e = Some v /\ truth v = false.
  Definition bindv (ps : list word) (vs : list V) (r : word -> option V) : word -> option V :=
    fold_left (fun r p => upd r (fst p) (snd p)) (combine ps vs) r.
End Sem.
