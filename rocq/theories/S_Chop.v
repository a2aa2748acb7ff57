(** What the lines of a recipe are. *)
From Verif Require Import Base.

(** [s] ends in an odd (even) number of backslashes. *)
Inductive bs_odd : str -> Prop :=
| bo : forall s, bs_even s -> bs_odd (s ++ [c_bslash])
with bs_even : str -> Prop :=
| be_nil : bs_even []
| be_char : forall s c, c <> c_bslash -> bs_even (s ++ [c])
| be_bs : forall s, bs_odd s -> bs_even (s ++ [c_bslash]).

(** One logical line: every newline in it is escaped. *)
Definition one_line (l : str) : Prop := forall a b, l = a ++ c_nl :: b -> bs_odd a.

(** A recipe and its lines: all but the last end at a newline that is not escaped; the last may
    also end with the recipe. *)
Inductive recipe : str -> list str -> Prop :=
| r_nil : recipe [] []
| r_last : forall l, l <> [] -> one_line l -> recipe l [l]
| r_line : forall l s ls, one_line l -> bs_even l -> recipe s ls -> recipe (l ++ c_nl :: s) (l :: ls).

(** The prefix of a line. *)
Definition prefix_char (c : ascii) : Prop := isblank c = true \/ c = c_minus \/ c = c_at \/ c = c_plus.
Definition line_prefix (line pre rest : str) : Prop :=
  line = pre ++ rest /\ Forall prefix_char pre /\ (forall c t, rest = c :: t -> ~ prefix_char c).
