(** What is to become of files whose names turn out to be the same. *)
From Verif Require Import Base M_Rename.
Open Scope list_scope.
Open Scope nat_scope.

(** Whoever has [x] in their hands gets to [y]. *)
Inductive resolves (h : nat -> file) : nat -> nat -> Prop :=
| rs_here x : f_renamed (h x) = None -> resolves h x x
| rs_next x y z : f_renamed (h x) = Some y -> resolves h y z -> resolves h x z.
(** [e] is the entry [d] or one behind it. *)
Inductive later (h : nat -> file) : nat -> nat -> Prop :=
| lt_here d : later h d d
| lt_next d p e : f_prev (h d) = Some p -> later h p e -> later h d e.
(** The files in the table have the names under which they are there, are not renamed, and the further entries of double-colon targets are not in it. *)
Definition sound (s : state) : Prop :=
  (forall n i, table s n = Some i -> f_hname (heap s i) = n /\ f_renamed (heap s i) = None) /\
  (forall n i d e, table s n = Some i -> f_colon (heap s i) = Some d -> later (heap s) d e -> e = i \/ forall m, table s m <> Some e).
(** The file has the name in the table. *)
Definition known (s : state) (i : nat) : Prop := table s (f_hname (heap s i)) = Some i.
Definition entry_of (h : nat -> file) (i e : nat) : Prop := exists d, f_colon (h i) = Some d /\ later h d e.

(** The first set that has a name, counted from inside, and the value. *)
Fixpoint value_in (s : vset) (n : str) : option str := match s with [] => None | (m, v) :: s' => if str_eqb m n then Some v else value_in s' n end.
Fixpoint level (l : vlist) (n : str) : option (nat * str) :=
  match l with [] => None | (_, s) :: l' => match value_in s n with Some v => Some (0, v) | None => option_map (fun p => (S (fst p), snd p)) (level l' n) end end.
Definition value (l : vlist) (n : str) : option str := option_map snd (level l n).
