(** What a user of the debugger expects, stated without the model's lists,
    cursors and tables. *)
From Verif Require Import Base.
From Verif Require Import M_Debugger.
Open Scope nat_scope.

(** * Breakpoints *)

(** The number of breakpoints ever set by a history. *)
Fixpoint breaks (ops : list dop) : nat :=
  match ops with
  | [] => 0
  | OpBreak _ _ :: r => S (breaks r)
  | _ :: r => breaks r
  end.

Definition is_break_at (ops : list dop) (k t : nat) (m : N) : Prop :=
  exists a b, ops = a ++ OpBreak t m :: b /\ breaks a = k.

(** Some `delete' after position [length a] names number [i]. *)
Definition deleted_in (i : nat) (b : list dop) : Prop :=
  In (OpDelete i) b \/ In OpDeleteAll b.

(** Breakpoint number [i], on target [t] with mask [m], was set by the
    history and not deleted since.  The first breakpoint has number 1. *)
Definition is_listed (ops : list dop) (i t : nat) (m : N) : Prop :=
  exists a b, ops = a ++ OpBreak t m :: b /\ i = S (breaks a) /\ ~ deleted_in i b.

(** The events asked for by listed breakpoints on [t]. *)
Definition wants (ops : list dop) (t : nat) (bit : nat) : Prop :=
  exists i m, is_listed ops i t m /\ N.testbit m (N.of_nat bit) = true.

(** Histories without `finish', which asks for a stop of its own. *)
Definition no_finish (ops : list dop) : Prop := forall t, ~ In (OpFinish t) ops.

(** No breakpoint is temporary. *)
Definition no_temp (ops : list dop) : Prop :=
  forall t m, In (OpBreak t m) ops -> N.land m BRK_TEMP = 0%N.

(** A breakpoint is only ever set on a target that has none listed. *)
Definition one_per_target (ops : list dop) : Prop :=
  forall a b t m, ops = a ++ OpBreak t m :: b -> forall i m', ~ is_listed a i t m'.

(** * Frames *)

(** The position a motion asks for. *)
Definition asked (depth pos : Z) (m : motion) : Z :=
  match m with
  | Frame n => if (n <? 0)%Z then (depth + n)%Z else n
  | Up n => (pos + n)%Z
  | Down n => (pos - n)%Z
  end.

(** Numbers small enough for the arithmetic to stay inside [int]. *)
Definition small (z : Z) : Prop := (-1073741824 < z < 1073741824)%Z.

Definition motion_number (m : motion) : Z :=
  match m with Frame n => n | Up n => n | Down n => n end.

(** The position after a series of motions when impossible motions are
    ignored. *)
Definition pos_after (depth : Z) (ms : list motion) : Z :=
  fold_left (fun pos m => let p := asked depth pos m in
                          if (0 <=? p)%Z && (p <? depth)%Z then p else pos) ms 0%Z.

(** * Words *)

Definition is_word (w : str) : Prop := w <> [] /\ forall c, In c w -> c <> c_sp /\ c <> c_tab.

Definition is_gap (g : str) : Prop := g <> [] /\ forall c, In c g -> c = c_sp \/ c = c_tab.

(** [line] is the words [ws] with gaps between them. *)
Inductive line_of (gap : str -> Prop) : list str -> str -> Prop :=
| lo_one : forall w, is_word w -> line_of gap [w] w
| lo_more : forall w g ws rest,
    is_word w -> gap g -> line_of gap ws rest -> line_of gap (w :: ws) (w ++ g ++ rest).

Definition one_blank (g : str) : Prop := g = [c_sp] \/ g = [c_tab].
