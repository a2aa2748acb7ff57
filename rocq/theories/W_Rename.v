(** C69, computed for generated tables of files.  Nothing is proved of the model here; Properties_RenameCheck says that all of these tests must succeed. *)
From Coq Require Import NArith.
From Verif Require Import Base M_Rename S_Rename S_RenameCheck W_Random.
Open Scope string_scope.
Open Scope list_scope.
Open Scope nat_scope.

Definition w_names : list str := map s2l ["a"; "b"; "c"; "d"; "e"; "f"].
Definition w_vnames : list str := map s2l ["U"; "V"; "W"; "X"].
Definition bits (s : N) : (nat -> bool) * N := let s' := next s in (fun k => N.testbit s' (N.of_nat (12 + k)), s').
Definition w_set (s : N) : vset * N := let '(b, s) := bits s in let '(v, s) := roll 9 s in (map (fun p => (snd p, snd p ++ [Ascii.ascii_of_nat (48 + v)])) (filter (fun p => b (fst p)) (combine [0; 1; 2; 3] w_vnames)), s).
Definition w_list (i : nat) (s : N) : vlist * N :=
  let '(k, s) := roll 4 s in let '(x, s) := w_set s in let '(y, s) := w_set s in let '(z, s) := w_set s in
  let '(sh, s) := chance 10 s in
  (firstn k [(3 * i, x); (if sh then 30 else 3 * i + 1, y); (3 * i + 2, z)], s).
Definition w_flags (s : N) : flags * N := let '(b, s) := bits s in (mkflags (b 0) (b 1) (b 2) (b 3) (b 4) (b 5) (b 6) (b 7) (b 8), s).
Definition w_others (s : N) : others * N := let '(b, s) := bits s in (mkothers (if b 0 then 2 else 0) (b 1) (b 2) (b 3) (if b 4 then 3 else 1), s).
Definition w_opt (p : nat) (n : N) (s : N) : option nat * N := let '(b, s) := chance p s in let '(k, s) := roll n s in (if b then Some k else None, s).
(** File [i]: 0 to 3 in the table, 4 to 6 further entries, 7 and 8 merged before. *)
Definition w_file (i : nat) (s : N) : file * N :=
  let n := nth i w_names (s2l "g") in
  let '(c, s) := w_opt 50 3 s in
  let '(d, s) := several 0 3 (pick [] w_vnames) s in
  let '(v, s) := w_list i s in
  let '(dc, s) := chance 35 s in
  let '(p, s) := w_opt 60 3 s in
  let '(r, s) := roll 4 s in
  let '(m, s) := roll 5 s in let '(b, s) := roll 5 s in let '(bi, s) := chance 30 s in let '(fl, s) := w_flags s in let '(o, s) := w_others s in
  let prev := if i <? 4 then if dc then option_map (fun q => 4 + q) p else None else if i <? 6 then option_map (fun _ => S i) p else None in
  let ren := if i <? 7 then None else if i =? 7 then Some r else Some 7 in
  (mkfile n n c d v (if (i <? 4) && dc then Some i else None) prev ren m b bi fl o, s).
Fixpoint w_files (l : list nat) (s : N) : list file * N := match l with [] => ([], s) | i :: l' => let '(f, s) := w_file i s in let '(r, s) := w_files l' s in (f :: r, s) end.
Definition addrs : list nat := [0; 1; 2; 3; 4; 5; 6; 7; 8].
Record case := mkcase { c_heap : list file; c_table : list (str * nat); c_i : nat; c_to : str }.
Definition w_case (s0 : N) : case :=
  let '(fs, s) := w_files addrs s0 in
  let '(i, s) := roll 4 s in
  let '(k, s) := roll 4 s in
  let '(to, s) := pick [] w_names s in
  mkcase fs (firstn (S k + (if k <? i then i - k else 0)) (combine w_names [0; 1; 2; 3])) i to.
Definition c_h (c : case) : nat -> file := fun i => nth i (c_heap c) (nth 0 (c_heap c) (mkfile [] [] None [] [] None None None 0 0 false (mkflags false false false false false false false false false) (mkothers 0 false false false 0))).
Definition one_rehash (s : N) : bool := let c := w_case s in t_rehash 9 (c_h c) (c_table c) (c_i c) (c_to c) w_names w_vnames addrs.
Definition rehashes_hold (l : list N) : bool := forallb one_rehash l.
Definition one_vars (s : N) : bool := let '(a, s) := w_list 0 s in let '(b, s) := w_list 1 s in t_vars a b w_vnames && t_shared a b w_vnames.
Definition vars_hold (l : list N) : bool := forallb one_vars l.
(** At least half of them are usable. *)
Definition usable_case (s : N) : bool := let c := w_case s in usable 9 (c_h c) (c_table c) (c_i c) (c_to c).
Definition kind (s : N) : nat :=
  let c := w_case s in
  if usable_case s then match rehash_file 9 (mkstate (c_h c) (listed (c_table c))) (c_i c) (c_to c) with Done _ (Some _) => 1 | Done _ None => 2 | Fatal => 3 | Abort => 4 | Endless => 5 end else 0.
Example rehash_1 : unit. Proof. computes (rehashes_hold (seeds 250 17)). Qed.
Example rehash_2 : unit. Proof. computes (rehashes_hold (seeds 250 40000017)). Qed.
Example vars_1 : unit. Proof. computes (vars_hold (seeds 300 23)). Qed.
Example many : unit. Proof. computes (50 <=? length (filter usable_case (seeds 100 17))). Qed.
Example kinds : unit. Proof. computes (forallb (fun k => existsb (fun s => kind s =? k) (seeds 100 17)) [1; 2; 3]). Qed.
Example rehash_small : rehashes_hold (seeds 3 5) = true. Proof. vm_compute. reflexivity. Qed.
