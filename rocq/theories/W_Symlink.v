(** C72, computed for generated links.  Nothing is proved of the model here; Properties_SymlinkCheck says that all of these tests must succeed. *)
From Coq Require Import NArith.
From Verif Require Import Base M_Symlink S_Symlink S_SymlinkCheck W_Random.
Open Scope string_scope.
Open Scope list_scope.
Open Scope nat_scope.

Definition w_names : list str := map s2l ["a"; "b"; "d/a"; "d/b"; "d/e/a"; "/r"; "/d/r"; "d/../a"; "d/../b"; "/d/a"; "d/e/b"; "d/e/../a"].
Definition w_texts : list str := map s2l ["a"; "b"; "/r"; "/d/r"; "../a"; "d/b"; "d/e/a"; "../b"; "e/a"; ""].
Definition w_answer (s : N) : lstat_answer * N :=
  let '(k, s) := roll 10 s in let '(t, s) := roll 9 s in let '(x, s) := pick [] w_texts s in
  (match k with 0 => Absent | 1 => Bad | 2 => Ordinary | 3 => Link t None | _ => Link t (Some x) end, s).
Fixpoint w_system (l : list str) (s : N) : list (str * lstat_answer) * N := match l with [] => ([], s) | p :: l' => let '(a, s) := w_answer s in let '(r, s) := w_system l' s in ((p, a) :: r, s) end.
Record case := mkcase { c_stat : stat_answer; c_sys : list (str * lstat_answer); c_pmax : nat; c_name : str }.
Definition w_case (s0 : N) : case :=
  let '(l, s) := w_system w_names s0 in let '(k, s) := roll 8 s in let '(t, s) := roll 9 s in let '(p, s) := roll 12 s in let '(nm, s) := pick [] w_names s in
  mkcase (match k with 0 => Failed | 1 | 2 => Missing | _ => There t end) l (1 + p) nm.
Definition one_name (s : N) : bool := let c := w_case s in t_links 9 (fun _ => c_stat c) (c_sys c) (c_pmax c) (c_name c).
Definition names_hold (l : list N) : bool := forallb one_name l.
(** How many links are met. *)
Definition count (s : N) : nat := let c := w_case s in if shortb (c_sys c) (c_pmax c) then match linksb 9 (c_sys c) (c_pmax c) (c_name c) with Some k => length k | None => 9 end else 10.
Example names_1 : unit. Proof. computes (names_hold (seeds 500 17)). Qed.
Example names_2 : unit. Proof. computes (names_hold (seeds 500 40000017)). Qed.
Example counts : unit. Proof. computes (forallb (fun k => existsb (fun s => count s =? k) (seeds 400 17)) [0; 1; 2; 3]). Qed.
Example names_small : names_hold (seeds 3 5) = true. Proof. vm_compute. reflexivity. Qed.
