(** C65, computed for generated runs.  Nothing is proved of the model here; Properties_OutputCheck says that all of these tests must succeed. *)
From Coq Require Import NArith.
From Verif Require Import Base M_Output S_Output S_OutputCheck W_Random.
Open Scope string_scope.
Open Scope list_scope.
Open Scope nat_scope.

Definition w_texts : list str := map s2l ["a"; "bc"; "def"; "ghijk"; "x"].
Definition w_event (locked : bool) (s : N) : event * N :=
  let '(c, s) := roll 2 s in
  let '(err, s) := chance 40 s in
  let '(t, s) := pick [] w_texts s in
  let '(r, s) := chance 25 s in
  let '(k, s) := roll 60 s in
  let '(z, s) := chance 70 s in
  (nth k (repeat (New c) 6 ++ repeat (Start c r) 6 ++ repeat (Say c err t) 4 ++ repeat (Run c) 6 ++ repeat (Write c err t) 8 ++ repeat (Exit c) 4
          ++ repeat (Next c) 3 ++ repeat (Finish c) 3 ++ repeat (Acquire (locked || z)) 6 ++ repeat Pump 8 ++ repeat Release 5) Quit, s).
(** Events that can happen; the others are left out. *)
Fixpoint w_run (cfg : config) (locked : bool) (n : nat) (st : state) (acc : list (nat * event)) (s : N) : list (nat * event) :=
  match n with
  | 0 => rev acc
  | S n' =>
      let '(m, s) := roll 2 s in
      let '(e, s) := w_event locked s in
      match step cfg st m e with
      | Some st' => w_run cfg locked n' st' ((m, e) :: acc) s
      | None => w_run cfg locked n' st acc s
      end
  end.
Definition w_more : list event :=
  flat_map (fun c => [New c; Start c false; Start c true; Say c false (s2l "x"); Say c true []; Run c; Write c true (s2l "y"); Exit c; Next c; Finish c]) [0; 1; 2] ++ [Quit].
Definition one_run (s : N) : bool :=
  let '(mo, s) := pick M_none [M_none; M_line; M_target; M_target; M_recurse] s in
  let '(pr, s) := chance 50 s in
  let '(sm, s) := chance 40 s in
  let '(sz, s) := roll 4 s in
  let '(lk, s) := chance 85 s in
  let '(n, s) := roll 220 s in
  let cfg := mkconfig mo pr sm sz in
  t_run cfg (w_run cfg lk n init [] s) [0; 1] [0; 1] w_more.
Definition runs_hold (l : list N) : bool := forallb one_run l.
Example runs_1 : unit. Proof. computes (runs_hold (seeds 400 1)). Qed.
Example runs_2 : unit. Proof. computes (runs_hold (seeds 400 90000001)). Qed.
Example runs_few : runs_hold (seeds 4 77) = true. Proof. vm_compute. reflexivity. Qed.
