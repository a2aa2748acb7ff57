(** C68, computed for generated goals, makefiles and command lines.  Nothing is proved of the model here; Properties_RestartCheck says that all of these tests must succeed. *)
From Coq Require Import NArith.
From Verif Require Import Base M_Flags M_Restart M_RestartEnv S_Restart S_RestartCheck W_Random.
Open Scope string_scope.
Open Scope list_scope.
Open Scope nat_scope.

Definition w_modes (s : N) : modes * N := let '(a, s) := chance 30 s in let '(b, s) := chance 40 s in let '(c, s) := chance 30 s in (mkmodes a b c, s).
Definition w_status (s : N) : ust * N := pick u_success [u_success; u_success; u_success; u_none; u_question; u_failed] s.
(** After eight calls everything is updated. *)
Definition w_upd (seed : N) (h : list event) (f : nat) (k : modes) : obs :=
  let s := next (next (seed + 7919 * N.of_nat (length h) + 31 * N.of_nat f + (if k_question k then 5 else 0))%N) in
  let '(fail, s) := chance 20 s in
  let '(u, s) := chance 55 s in
  let '(st, s) := w_status s in
  let '(b, s) := chance 60 s in
  let '(t, s) := chance 70 s in
  mkobs fail (u || (8 <=? length h)) st b t.
Definition w_goal (i : nat) (s : N) : goal * N :=
  let '(l, s) := several 1 2 (fun s => let '(b, s) := chance 40 s in let '(f, s) := roll 3 s in ((3 * i + f, b), s)) s in
  let '(d, s) := chance 30 s in (mkgoal i l d false, s).
Fixpoint w_goals (n : nat) (i : nat) (s : N) : list goal * N :=
  match n with 0 => ([], s) | S n' => let '(g, s) := w_goal i s in let '(l, s) := w_goals n' (S i) s in (g :: l, s) end.
Definition one_chain (s0 : N) : bool :=
  let '(k, s) := roll 4 s0 in
  let '(l, s) := w_goals (S k) 0 s in
  let '(rb, s) := chance 60 s in
  let '(kg, s) := chance 50 s in
  let '(user, s) := w_modes s in
  t_chain rb kg user (w_upd s) (8 + length l) l.
Definition chains_hold (l : list N) : bool := forallb one_chain l.
Definition w_after (seed : N) (h : list event) (g : goal) : after :=
  let s := next (next (seed + 131 * N.of_nat (g_id g))%N) in
  let '(u, s) := chance 60 s in
  let '(st, s) := w_status s in
  let '(t, s) := pick None [Some 1; Some 1; Some 2; None] s in
  mkafter u st t.
Definition w_before (seed : N) (g : goal) : option nat := fst (pick None [Some 1; Some 1; None] (next (seed + 77 * N.of_nat (g_id g))%N)).
Fixpoint w_makefiles (l : list goal) (s : N) : list makefile * N :=
  match l with
  | [] => ([], s)
  | g :: l' => let '(a, s) := chance 20 s in let '(b, s) := chance 40 s in let '(c, s) := chance 50 s in let '(r, s) := w_makefiles l' s in (mkmakefile g a b c :: r, s)
  end.
Definition one_next (s0 : N) : bool :=
  let '(k, s) := roll 3 s0 in
  let '(l, s) := w_goals (S k) 0 s in
  let '(ms, s) := w_makefiles l s in
  let '(kg, s) := chance 50 s in
  let '(user, s) := w_modes s in
  t_next kg user (w_upd s) (8 + length l) (w_before s) (w_after s) ms.
Definition nexts_hold (l : list N) : bool := forallb one_next l.

Definition w_words : list str := map s2l ["-k"; "-f"; "a"; "-fb"; "-C"; "--jobs=2"; "x=1"; "all"; "-"; "--"; "-f./c"; "-n"; "--directory"; "--file=d"; "-kf"; "-W"; "-j"; "b"; "-f"; "-o"; "-feq"].
Definition w_names : list str := map s2l ["a"; "/tmp/x"; "b.mk"; "c"; "-q"].
Definition one_words (s0 : N) : bool :=
  let '(argv, s) := several 1 8 (pick [] w_words) s0 in
  match d_read argv with
  | Some d => let '(names, s) := draw (length (d_files d)) (pick [] w_names) s in t_words argv names && t_stdin argv names (s2l "/tmp/x")
  | None => true
  end.
Definition words_hold (l : list N) : bool := forallb one_words l.
(** How many of them say something. *)
Definition says_something (s0 : N) : bool :=
  let '(argv, s) := several 1 8 (pick [] w_words) s0 in
  match d_read argv with Some d => align (length argv) argv && (1 <=? length (d_files d)) | None => false end.

Example chains_1 : unit. Proof. computes (chains_hold (seeds 400 1)). Qed.
Example chains_few : chains_hold (seeds 3 5) = true. Proof. vm_compute. reflexivity. Qed.
Example nexts_1 : unit. Proof. computes (nexts_hold (seeds 400 11)). Qed.
Example nexts_few : nexts_hold (seeds 3 50) = true. Proof. vm_compute. reflexivity. Qed.
Example words_1 : unit. Proof. computes (words_hold (seeds 1500 21)). Qed.
Example words_many : unit. Proof. computes (100 <=? length (filter says_something (seeds 1500 21))). Qed.
Example words_few : words_hold (seeds 2 70) = true. Proof. vm_compute. reflexivity. Qed.

(** The environment. *)
Definition w_env : list str := map s2l ["A=b"; "MAKE_RESTARTS=3"; "MAKELEVEL=4"; "MAKE_RESTARTS"; "MAKELEVELS=1"; "MAKE_RESTARTSX=9"; "XMAKE_RESTARTS=9"; "B="].
Definition one_env (s0 : N) : bool :=
  let '(e, s) := subset 60 w_env s0 in
  let '(t, s) := chance 50 s in
  let '(r, s) := roll 1000 s in
  let '(l, s) := roll 30 s in
  let '(z, b) := restarts_of (next_env (Z.of_nat l) t (Z.of_nat r) e) in
  (z =? Z.of_nat r + 1)%Z && eqb b t.
Definition envs_hold (l : list N) : bool := forallb one_env l.
Example envs_1 : unit. Proof. computes (envs_hold (seeds 300 4)). Qed.
Example envs_few : envs_hold (seeds 2 70) = true. Proof. vm_compute. reflexivity. Qed.
