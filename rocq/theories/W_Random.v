(** Pseudo-random numbers, for the samples in the files W_*. *)
From Coq Require Import NArith.
From Verif Require Import Base.
Open Scope list_scope.
Open Scope nat_scope.

Definition next (s : N) : N := (N.land (1103515245 * s + 12345) 2147483647)%N.
Definition roll (n : N) (s : N) : nat * N := let s' := next s in (N.to_nat (N.shiftr s' 16 mod n)%N, s').
Definition chance (p : nat) (s : N) : bool * N := let '(k, s') := roll 100 s in (k <? p, s').
Fixpoint draw {A} (n : nat) (g : N -> A * N) (s : N) : list A * N := match n with 0 => ([], s) | S n' => let '(a, s1) := g s in let '(l, s2) := draw n' g s1 in (a :: l, s2) end.
Definition pick {A} (d : A) (l : list A) (s : N) : A * N := let '(k, s') := roll (N.of_nat (length l)) s in (nth k l d, s').
(** At least [a], less than [a + n] draws. *)
Definition several {A} (a : nat) (n : N) (g : N -> A * N) (s : N) : list A * N := let '(k, s1) := roll n s in draw (a + k) g s1.
(** Each with [p] percent. *)
Fixpoint subset {A} (p : nat) (l : list A) (s : N) : list A * N :=
  match l with [] => ([], s) | a :: l' => let '(b, s1) := chance p s in let '(r, s2) := subset p l' s1 in (if b then a :: r else r, s2) end.
Fixpoint seeds (k : nat) (s : N) : list N := match k with 0 => [] | S k' => s :: seeds k' (s + 7919)%N end.

(** A test that is computed by the virtual machine when the file is compiled: the compilation stops if the result is not [true].  Nothing is left for the kernel, because coqchk would
    compute it again without the machine.  That the tests must succeed is proved in the files Properties_*Check. *)
Ltac computes t := let b := eval vm_compute in t in lazymatch b with true => exact tt end.
