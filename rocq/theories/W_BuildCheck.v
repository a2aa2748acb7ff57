(** The tests of S_BuildCheck, computed for generated makefiles.  Nothing is proved of the model here, and no theorem is used:
    Properties_BuildCheck says that all of these tests must succeed. *)
From Verif Require Import Base M_Build S_Build S_BuildCheck W_Random.
From Coq Require Import NArith.
Open Scope list_scope.
Open Scope nat_scope.

(** The files of a list of [n] that are chosen, each by [p] percent. *)
Definition some (p n : nat) (s : N) : list nat * N := let '(l, s') := draw n (chance p) s in (map fst (filter snd (combine (seq 0 n) l)), s').
(** The prerequisites of [f]: mostly files with higher numbers. *)
Fixpoint gen_edges (f : nat) (l : list nat) (fw bw : nat) (s : N) : list (nat * bool) * N :=
  match l with
  | [] => ([], s)
  | d :: l' =>
      let '(b, s1) := chance (if f <? d then fw else bw) s in let '(o, s2) := chance 20 s1 in let '(r, s3) := gen_edges f l' fw bw s2 in
      (if b then (d, o) :: r else r, s3)
  end.
Fixpoint gen_deps (todo n fw bw : nat) (s : N) : list (list (nat * bool)) * N :=
  match todo with 0 => ([], s) | S t => let '(e, s1) := gen_edges (n - todo) (seq 0 n) fw bw s in let '(r, s2) := gen_deps t n fw bw s1 in (e :: r, s2) end.
Definition gen_time (s : N) : time * N := let '(b, s1) := chance 35 s in let '(k, s2) := roll 10 s1 in (if b then Absent else At k, s2).
(** [how]: the mode; [odd]: with cycles, double-colon rules, intermediate files and -B. *)
Definition gen (n : nat) (how : mode) (odd : bool) (s : N) : mf :=
  let pc k := if odd then k else 0 in
  let '(deps, s) := gen_deps n n 40 (pc 8) s in
  let '(phony, s) := some 12 n s in
  let '(cmds, s) := some 70 n s in
  let '(t, s) := some 60 n s in
  let '(blank, s) := some 6 n s in
  let '(double, s) := some (pc 12) n s in
  let '(inter, s) := some (pc 25) n s in
  let '(tried, s) := some (pc 30) n s in
  let '(keep, s) := chance 50 s in
  let '(always, s) := chance (pc 8) s in
  let '(new, s) := chance (if odd then 40 else 100) s in
  let '(ok, s) := draw 12 (chance 85) s in
  let '(pick, s) := draw 12 (roll 3) s in
  let '(before, s) := draw 40 (roll 2) s in
  let '(after, s) := draw 40 (roll 3) s in
  let '(disk, s) := draw n gen_time s in
  let '(g2, s) := chance 40 s in
  mkmf deps phony (cmds ++ t) cmds blank double (filter (fun f => memb f cmds && negb (memb f tried)) inter) tried (match how with Normal | Dry => keep | _ => true end) always how new ok pick before after disk (if g2 then [1; 0] else [0]).
Definition gens (k n : nat) (how : mode) (odd : bool) (s : N) : list mf := map (gen n how odd) (seeds k s).

Definition samples_small : list mf := gens 300 4 Normal true 1.
Definition samples_normal : list mf := gens 300 6 Normal true 2.
Definition samples_plain : list mf := gens 200 5 Normal false 3.
Definition samples_modes : list mf := gens 150 5 Dry true 4 ++ gens 150 5 Ask true 5 ++ gens 80 5 Touch true 6.
Definition test_all (l : list mf) : bool := forallb (fun x => negb (fits_b x) || (check x && check2 x)) l.
Example samples_small_hold : unit. Proof. computes (test_all samples_small). Qed.
Example samples_normal_hold : unit. Proof. computes (test_all samples_normal). Qed.
Example samples_plain_hold : unit. Proof. computes (test_all samples_plain). Qed.
Example samples_modes_hold : unit. Proof. computes (test_all samples_modes). Qed.
(** A few for the kernel. *)
Definition samples_few : list mf := gens 3 3 Normal true 7 ++ gens 2 3 Dry true 8.
Example samples_few_hold : test_all samples_few = true. Proof. vm_compute. reflexivity. Qed.
