(** C66, computed for generated calls.  Nothing is proved of the model here; Properties_DirCheck says that all of these tests must succeed. *)
From Coq Require Import NArith.
From Verif Require Import Base M_Dir S_Dir S_DirCheck W_Random.
Open Scope string_scope.
Open Scope list_scope.
Open Scope nat_scope.

Definition w_dirs : list str := map s2l ["."; "sub"; "link"; "d1"; "d2"; "d3"; "d4"; "d5"; "d6"; "d7"; "d8"; "d9"; "gone"].
Definition w_names : list str := map s2l ["a"; "b"; "ab"; "c"; ""].
(** A directory: not there; there but not to be read; files. *)
Definition w_dir (s : N) : (option nat * option (list str)) * N :=
  let '(there, s) := chance 88 s in
  let '(readable, s) := chance 88 s in
  let '(i, s) := roll 12 s in
  let '(l, s) := subset 45 (map s2l ["c"; "a"; "ab"; "b"]) s in
  ((if there then Some i else None, if readable then Some l else None), s).
Definition w_entry (t : list (str * (option nat * option (list str)))) (d : str) : option nat * option (list str) :=
  match find (fun x => str_eqb (fst x) d) t with Some x => snd x | None => (None, None) end.
Definition w_world (s : N) : world * N :=
  let '(l, s) := draw (length w_dirs) w_dir s in
  let t := combine w_dirs l in (mkworld (fun d => fst (w_entry t d)) (fun d => snd (w_entry t d)), s).
Fixpoint w_calls (ws : list world) (w : world) (n : nat) (acc : list (world * call)) (s : N) : list (world * call) :=
  match n with
  | 0 => rev acc
  | S n' =>
      let '(v, s) := pick w ws s in
      let '(d, s) := pick [] w_dirs s in
      let '(f, s) := pick [] w_names s in
      let '(k, s) := roll 12 s in
      let es := rev acc in
      let k := nth k (repeat (Exists d f) 5 ++ repeat (Marked d f) 2 ++ repeat (Mark d f) 4) (Glob d) in
      (* a mark that is not careful is left out *)
      let acc' := if carefulb (es ++ [(v, k)]) then (v, k) :: acc else acc in
      w_calls ws w n' acc' s
  end.
Definition one_run (s : N) : bool :=
  let '(ws, s) := draw 2 w_world s in
  let '(w, s) := w_world s in
  let '(n, s) := roll 45 s in
  let es := w_calls ws w n [] s in
  t_run es w w_dirs w_names 12.
Definition runs_hold (l : list N) : bool := forallb one_run l.
Example runs_1 : unit. Proof. computes (runs_hold (seeds 60 1)). Qed.
Example runs_2 : unit. Proof. computes (runs_hold (seeds 60 90000001)). Qed.
Example runs_few : runs_hold (seeds 1 77) = true. Proof. vm_compute. reflexivity. Qed.

Definition splits_hold (l : list str) : bool := forallb t_split l.
Example splits : splits_hold (map s2l [""; "a"; "/"; "/a"; "a/"; "a/b"; "//"; "//a"; "/a/b"; "a//b"; "a/b/c.c"; "./a"; "../a/"]) = true.
Proof. vm_compute. reflexivity. Qed.
