(** Which links there are on the way to a file. *)
From Verif Require Import Base M_Symlink.
Open Scope list_scope.
Open Scope nat_scope.

(** A link at [p] with the text [x] leads to the third name. *)
Inductive leads : str -> str -> str -> Prop :=
| ld_root p x : leads p ("/"%char :: x) ("/"%char :: x)
| ld_here p x : ~ In "/"%char p -> leads p x x
| ld_beside d b x : ~ In "/"%char b -> (forall y, x <> "/"%char :: y) -> leads (d ++ "/"%char :: b) x (d ++ "/"%char :: x).
(** The links from [p] on, with their times, up to something that is no link, one that cannot be read, or a name that is too long. *)
Inductive hops (lstat : str -> lstat_answer) (pmax : nat) : str -> list (str * nat) -> Prop :=
| hp_end p : (forall t x, lstat p <> Link t x) -> hops lstat pmax p []
| hp_stuck p t : lstat p = Link t None -> hops lstat pmax p [(p, t)]
| hp_long p t x q : lstat p = Link t (Some x) -> leads p x q -> pmax <= length q -> hops lstat pmax p [(p, t)]
| hp_next p t x q l : lstat p = Link t (Some x) -> leads p x q -> length q < pmax -> hops lstat pmax q l -> hops lstat pmax p ((p, t) :: l).
(** Texts of links are shorter than the longest name, as POSIX says. *)
Definition short (lstat : str -> lstat_answer) (pmax : nat) : Prop := forall p t x, lstat p = Link t (Some x) -> length x < pmax.
Definition newest (m : nat) (l : list nat) : Prop := In m l /\ forall x, In x l -> x <= m.
(** What the file itself counts for. *)
Definition own_time (a : stat_answer) : nat := match a with There m => m | _ => NOT_THERE end.
