(** Which files may be deleted at the end: in terms of the makefile, the command line, the disk as it
    was, and the recipes that were run. *)
From Verif Require Import Base M_Build M_Clean.

(** [r]: the files make says it removes, and the disk in the end.  [D]: the disk before that. *)
Definition deleted (D : nat -> time) (r : list nat * (nat -> time)) (f : nat) : Prop := D f <> Absent /\ snd r f = Absent.
(** Nothing is changed but what is deleted. *)
Definition only_deletes (D : nat -> time) (r : list nat * (nat -> time)) : Prop := forall f, snd r f = D f \/ deleted D r f.
(** The makefile, or an implicit rule, makes [f] intermediate. *)
Definition is_intermediate (k : marks) (f : nat) : Prop := In f (k_intermediate k) \/ (exists l, In l (k_secondary k) /\ In f l) \/ k_found k f = true.
(** [f] is to be kept: .PRECIOUS (by its name or by its pattern), .SECONDARY, mentioned in the makefile
    though an implicit rule has found it, or given on the command line. *)
Inductive to_keep (k : marks) (f : nat) : Prop :=
| keep_precious : In f (k_precious k) -> k_dontcare k f = false -> to_keep k f
| keep_pattern : k_pattern k f = true -> k_dontcare k f = false -> to_keep k f
| keep_secondary l : In l (k_secondary k) -> In f l -> to_keep k f
| keep_all : In [] (k_secondary k) -> to_keep k f
| keep_mentioned : k_found k f = true -> k_known k f = true -> to_keep k f
| keep_given : In f (k_given k) -> to_keep k f.
(** No recipe but that of [f] removes [f]. *)
Definition spared (m : make) (f : nat) : Prop := forall c g D, g <> f -> D f <> Absent -> t_effect (m_world m c) g D f <> Absent.
(** No recipe but that of [f] touches [f]. *)
Definition private (m : make) (f : nat) : Prop := forall c g D, g <> f -> t_effect (m_world m c) g D f = D f.
