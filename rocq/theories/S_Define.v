(** What define ... endef is to read. *)
From Verif Require Import Base.
Open Scope string_scope.
Open Scope list_scope.
Open Scope nat_scope.

Definition blankline (s : str) : Prop := forall c, In c s -> isspace c = true.
(** The first word of the line is [w], ended by a blank or the end of the line; [r] is what follows.  Lines that begin with the prefix of recipes do not count. *)
Definition starts (prefix : ascii) (w line r : str) : Prop :=
  (exists sp, blankline sp /\ line = sp ++ w ++ r) /\ (forall c t, line = c :: t -> c <> prefix) /\ (r = [] \/ exists c t, r = c :: t /\ isblank c = true).
Definition opens prefix line := exists r, starts prefix (s2l "define") line r.
Definition closes prefix line := exists r, starts prefix (s2l "endef") line r.
(** Lines in which each inner define has its endef. *)
Inductive balanced (prefix : ascii) : list str -> Prop :=
| bal_nil : balanced prefix []
| bal_line l ls : ~ opens prefix l -> ~ closes prefix l -> balanced prefix ls -> balanced prefix (l :: ls)
| bal_block d b e ls : opens prefix d -> balanced prefix b -> closes prefix e -> balanced prefix ls -> balanced prefix (d :: b ++ e :: ls).
(** Lines put together, with newlines between them. *)
Fixpoint joined (ls : list str) : str := match ls with [] => [] | [l] => l | l :: ls' => l ++ c_nl :: joined ls' end.
(** What becomes of a line in the value: it stays as it is, but an inner endef may lose a comment. *)
Definition becomes (prefix : ascii) (l k : str) : Prop := (k = l /\ ~ closes prefix l) \/ (closes prefix l /\ (k = l \/ In (ascii_of_nat 35) l)).
