(** What -O promises about the output of jobs. *)
From Verif Require Import Base M_Output.
Open Scope list_scope.
Open Scope nat_scope.

(** What child [c] of make [m] has put out, by make's messages and by its commands: from the events alone. *)
Definition said (es : list (nat * event)) (m c : nat) : list (bool * str) :=
  flat_map (fun x => match snd x with
                     | Say c' err t | Write c' err t => if (fst x =? m) && (c' =? c) then [(err, t)] else []
                     | _ => []
                     end) es.

(** What can be seen of it on the terminal. *)
Definition of_kid (m c : nat) (e : entry) : bool :=
  (e_make e =? m) && match e_kid e with Some c' => c' =? c | None => false end.
Definition shown (l : list entry) (m c : nat) : list (bool * str) :=
  flat_map (fun e => match e_what e with
                     | Text err t => if of_kid m c e then [(err, t)] else []
                     | _ => []
                     end) l.

(** The bytes for one stream ([d]: stderr); if both are the same file, there is only one. *)
Definition bytes (same d : bool) (l : list (bool * str)) : str :=
  concat (map snd (filter (fun p => same || Bool.eqb (fst p) d) l)).

(** Make [m] is not inside output_dump. *)
Definition not_dumping (st : state) (m : nat) : Prop := m_task (s_makes st m) = None.

(** The lock could always be had. *)
Definition locks (es : list (nat * event)) : Prop := forall m, ~ In (m, Acquire false) es.

(** What is written for one child at one go. *)
Definition text_for (m c : nat) (err : bool) (t : str) : entry := mkentry m (Some c) true (Text err t).
Inductive block (directory : bool) (m c : nat) : list entry -> Prop :=
| Block : forall outs errs, outs <> [] \/ errs <> [] ->
    block directory m c
      ((if directory then [mkentry m None true Enter] else [])
       ++ map (text_for m c false) outs ++ map (text_for m c true) errs
       ++ (if directory then [mkentry m None true Leave] else [])).
(** The makes say where they are around each block. *)
Definition directory (cfg : config) : bool :=
  c_print cfg && match c_mode cfg with M_line | M_target => true | _ => false end.

(** Blocks one after the other, by the makes [ms]. *)
Inductive dumps (dir : bool) : list nat -> list entry -> Prop :=
| Dumps_nil : dumps dir [] []
| Dumps_snoc : forall ms l m c b, dumps dir ms l -> block dir m c b -> dumps dir (ms ++ [m]) (l ++ b).
(** The makes that have left the function, in this order: one block each. *)
Definition releases (es : list (nat * event)) : list nat :=
  flat_map (fun x => match snd x with Release => [fst x] | _ => [] end) es.

Definition prefix (a b : str) : Prop := exists r, b = a ++ r.
(** What make [m] and its children have written. *)
Definition made (m : nat) (l : list entry) : list entry := filter (fun e => e_make e =? m) l.

(** The output of child [c] is held back to its end: with -Orecurse; with -Otarget, unless one of its lines runs
    another make. *)
Definition held_back (cfg : config) (es : list (nat * event)) (m c : nat) : Prop :=
  c_mode cfg = M_recurse \/ (c_mode cfg = M_target /\ ~ In (m, Start c true) es).

(** * What may happen next, from what has happened *)
Inductive phase := Unborn | Rest (started : bool) | Running | Gone.
Definition after (c : nat) (e : event) (p : phase) : phase :=
  match e with
  | New c' => if c' =? c then Rest false else p
  | Start c' _ => if c' =? c then Rest true else p
  | Run c' => if c' =? c then Running else p
  | Exit c' => if c' =? c then Rest false else p
  | Finish c' => if c' =? c then Gone else p
  | _ => p
  end.
Definition phase_of (es : list (nat * event)) (m c : nat) : phase :=
  fold_left (fun p x => if fst x =? m then after c (snd x) p else p) es Unborn.
Definition may (es : list (nat * event)) (m : nat) (e : event) : Prop :=
  match e with
  | New c => phase_of es m c = Unborn /\ ~ In (m, Quit) es
  | Start c _ | Next c | Finish c => (exists r, phase_of es m c = Rest r) /\ ~ In (m, Quit) es
  | Say c _ t => (exists r, phase_of es m c = Rest r) /\ t <> [] /\ ~ In (m, Quit) es
  | Run c => phase_of es m c = Rest true /\ ~ In (m, Quit) es
  | Write c _ _ | Exit c => phase_of es m c = Running
  | Quit => ~ In (m, Quit) es
  | Acquire _ | Pump | Release => False
  end.
(** The steps of output_dump; and what commands do, whatever make does. *)
Definition of_dump (e : event) : bool := match e with Acquire _ | Pump | Release => true | _ => false end.
Definition of_command (e : event) : bool := match e with Write _ _ _ | Exit _ => true | _ => false end.
