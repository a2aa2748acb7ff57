(** What may be left of a target whose recipe failed. *)
From Verif Require Import Base M_Delete.
Open Scope list_scope.
Open Scope nat_scope.

(** Nothing of the target is left that the recipe made: it is gone, or it is what make saw before, or no ordinary file. *)
Definition clean (seen : nat) (d : option node) : Prop := forall n, d = Some n -> n_regular n = true -> n_time n = seen.

(** Events that change a file, look at it, start a recipe for it; events after which make may delete targets of [c]. *)
Definition changes (f : str) (e : event) : Prop := exists d, e = Change f d.
Definition starts (c f : str) (e : event) : Prop := exists also pid, e = Start c also pid /\ (f = c \/ In f also).
Definition fails (c : str) (e : event) : Prop := e = Fatal true \/ (exists s, e = Reap c (Failed s)) \/ exists s, e = Reap c (Next s).
