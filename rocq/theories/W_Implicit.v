(** The tests of S_ImplicitCheck, computed for generated sets of rules.  Nothing is proved of the model here; Properties_ImplicitCheck says that all of these tests must succeed. *)
From Coq Require Import NArith.
From Verif Require Import Base M_Implicit S_Implicit S_ImplicitCheck W_Random.
Open Scope string_scope.
Open Scope list_scope.
Open Scope nat_scope.

Definition w_targets : list (str * nat) :=
  map (fun p : string * nat => (s2l (fst p), snd p))
  [("%.o", 0); ("%.o", 0); ("%.c", 0); ("%.c", 0); ("%.y", 0); ("%", 0); ("lib%.o", 3); ("a%", 1); ("d/%.o", 2); ("%.y", 0); ("(%.o)", 1); ("%b.o", 0); ("%/x", 0); ("foo%.o", 3); ("%.o", 0); ("%.c", 0); ("a%%", 1); ("%o", 0); ("%.x", 0); ("b%", 1); ("l%", 1)].
Definition w_prereqs : list str := map s2l ["%.c"; "%.y"; "%.o"; "x"; "%"; "d/%.h"; "s.%"; "%/q"; "l%"; "%.c,v"; "a%%b"; "%.c"; "%.y"; "%.z"; "%.c"; "%.y"; "%.c"; "%.y"; "%,v"].
Definition w_names : list str :=
  map s2l ["foo.o"; "foo.o"; "foo.o"; "d/foo.o"; "d/foo.o"; "foo.c"; "d/foo.c"; "libfoo.o"; "libfoo.o"; "d/libfoo.o"; "d/libfoo.c"; "foo"; "a/b/"; "l.a(foo.o)"; "(foo.o)"; "ab.o"; "d/"; "a"; "foo.y"; "d/e/foo.o"; "a%"; "d/x"; "foo.x"; "l((a)"; "(a)"; "l()"; "a/b/"; "d/l.a(x)"; "l.a(d/x)"].
Definition w_there : list str :=
  map s2l ["foo.c"; "foo.y"; "foo.o"; "foo"; "x"; "x2"; "d/foo.c"; "d/foo.y"; "libfoo.c"; "libfoo.y"; "d/libfoo.c"; "d/libfoo.y"; "d/lfoo"; "lfoo"; "s.foo"; "s.foo.o"; "d/s.foo.o"; "d/s.foo"; "ab.c"; "ab.y"; "b.c"; "a.c";
           "d/d/foo.h"; "d/foo.h"; "d/e/foo.c"; "d/e/foo.y"; "foo.o.c,v"; "foo.c,v"; "d/foo.c,v"; "l.a(foo.c"; "l.a(foo.y"; "afoo%b"; "foo/q"; "d/foo/q"; "foo.z"; "d/foo.z"; "d/.c"; "d/.y"; "a/b/.c"; "a/b.c"; "d/l.a(x).c"; "d/l.a(x),v"; "foo.c,v"; "d/foo.c,v"; "foo.y,v"].
Definition gen_dep (pool : list str) (s : N) : pdep * N := let '(n, s1) := pick [] pool s in let '(o, s2) := chance 25 s1 in (mkpdep n o, s2).
Definition gen_rule (targets : list (str * nat)) (pool : list str) (s : N) : rule * N :=
  let '(ts, s) := several 1 2 (pick ([], 0) targets) s in
  let '(ds, s) := several 0 3 (gen_dep pool) s in
  let '(none, s) := chance 12 s in
  let '(terminal, s) := chance 20 s in
  (mkrule ts ds (if none then None else Some (length ts)) terminal, s).
Record world := mkworld { w_rules : list rule; w_max : nat; w_split : bool; w_known : list str; w_exist : list str; w_path : list str; w_arch : bool; w_name : str; w_expl : list str; w_state : sstate }.
Definition w_parse (b : bool) (x : str) : list str := if b && str_eqb x (s2l "x") then [s2l "x"; s2l "x2"] else if b && str_eqb x (s2l "foo.z") then [] else [x].
(** Found on the search path: only if another file has been entered. *)
Definition w_vpath (l : list str) (files : list str) (n : str) : bool := b_in n l && (existsb (fun f => negb (b_in f l)) files || (length n <? 5)).
Definition gen_world (targets : list (str * nat)) (pool names there : list str) (odd : bool) (s : N) : world :=
  let pc k := if odd then k else 0 in
  let '(rs, s) := several 3 4 (gen_rule targets pool) s in
  let '(m, s) := chance (pc 12) s in
  let '(split, s) := chance 50 s in
  let '(known, s) := subset (pc 6) there s in
  let '(exist_, s) := subset 40 there s in
  let '(path, s) := subset 6 there s in
  let '(arch, s) := chance (pc 15) s in
  let '(name, s) := pick [] names s in
  let '(expl, s) := subset 5 there s in
  let '(files, s) := subset 5 there s in
  let '(impossible, s) := subset 4 there s in
  mkworld rs (if m then 3 else 90) split known exist_ path arch name expl (mkst files impossible).
Definition world_test (w : world) : bool :=
  let lookup n := b_in n (w_known w) in let exist n := b_in n (w_exist w) in
  if t_search (w_rules w) (w_max w) (w_parse (w_split w)) lookup exist (w_vpath (w_path w)) (w_arch w) (w_name w) (w_expl w) (w_state w)
  then t_timely (w_rules w) (w_max w) (w_parse (w_split w)) lookup exist (w_vpath (w_path w)) 2 (w_arch w) (w_name w) (w_expl w) (w_state w) else false.
Definition worlds_hold (l : list world) : bool := forallb world_test l.
Definition worlds (k : nat) (s : N) : list world := map (gen_world w_targets w_prereqs w_names w_there true) (seeds k s).
(** Chains: the sources are further away. *)
Definition c_targets : list (str * nat) := map (fun p : string * nat => (s2l (fst p), snd p)) [("%.o", 0); ("%.c", 0); ("%.y", 0); ("lib%.c", 3); ("d/%.c", 2); ("%", 0); ("%.c", 0); ("%.y", 0)].
Definition c_prereqs : list str := map s2l ["%.c"; "%.y"; "%.z"; "x"; "%.c"; "%.y"; "y.y"].
Definition c_names : list str := map s2l ["foo.o"; "d/foo.o"; "libfoo.o"].
Definition c_there : list str := map s2l ["foo.z"; "d/foo.z"; "libfoo.z"; "x"; "y.z"; "x2"; "d/x"].
Definition chains (k : nat) (s : N) : list world := map (gen_world c_targets c_prereqs c_names c_there false) (seeds k s).
(** Many rules that fit the same name. *)
Definition o_targets : list (str * nat) := map (fun p : string * nat => (s2l (fst p), snd p)) [("%.o", 0); ("%o", 0); ("f%", 1); ("fo%", 2); ("foo%.o", 3); ("fo%.o", 2); ("f%.o", 1); ("b%", 1)].
Definition orders (k : nat) (s : N) : list world := map (gen_world o_targets (map s2l ["x"; "y"; "z"; "u"]) [s2l "foobar.o"; s2l "d/foobar.o"] (map s2l ["x"; "y"; "z"; "d/x"; "d/y"; "d/u"; "u"]) false) (seeds k s).
Definition long (l : list world) : list world := map (fun w => mkworld (w_rules w ++ map (fun t => mkrule [t] [mkpdep (s2l "u") false; mkpdep (s2l "z") false] (Some 1) false) o_targets) (w_max w) (w_split w) (w_known w) (w_exist w) (w_path w) (w_arch w) (w_name w) (w_expl w) (w_state w)) l.
Definition deep (l : list world) : list world :=
  map (fun w => mkworld (map (fun p : string * string => mkrule [(s2l (fst p), 0)] [mkpdep (s2l (snd p)) false] (Some 3) false) [("%.y", "%.z"); ("%.o", "%.c"); ("%.c", "%.y"); ("%.z", "%.w")] ++ w_rules w)
    (w_max w) (w_split w) (w_known w) (w_exist w ++ map s2l ["foo.w"; "d/foo.w"; "libfoo.w"]) (w_path w) (w_arch w) (w_name w) (w_expl w) (mkst [] [])) l.
Example searches_5 : unit. Proof. computes (worlds_hold (deep (chains 100 31))). Qed.
Example searches_1 : unit. Proof. computes (worlds_hold (worlds 300 1)). Qed.
Example searches_2 : unit. Proof. computes (worlds_hold (worlds 300 4000001)). Qed.
Example searches_3 : unit. Proof. computes (worlds_hold (chains 400 11)). Qed.
Example searches_4 : unit. Proof. computes (worlds_hold (long (orders 150 21))). Qed.
Example searches_few : worlds_hold (worlds 2 5 ++ chains 3 11) = true. Proof. vm_compute. reflexivity. Qed.
(** C30_complete: rules in layers. *)
Definition layer (k : nat) : str := nth k (map s2l [".a"; ".b"; ".c"; ".d"; ".e"]) [].
Definition gen_tame (k : nat) (s : N) : rule * N :=
  let '(ds, s) := several 0 3 (fun s => let '(j, s1) := roll (N.of_nat (4 - k)) s in (mkpdep (c_percent :: layer (S k + j)) false, s1)) s in
  let '(terminal, s) := chance 15 s in
  (mkrule [(c_percent :: layer k, 0)] ds (Some k) terminal, s).
Fixpoint gen_layers (ks : list nat) (s : N) : list rule * N :=
  match ks with [] => ([], s) | k :: ks' => let '(r, s1) := gen_tame k s in let '(l, s2) := gen_layers ks' s1 in (r :: l, s2) end.
(** A terminal rule for anything. *)
Definition gen_any (s : N) : list rule * N :=
  let '(b, s) := chance 50 s in let '(z, s) := chance 30 s in
  (if b then [mkrule [([c_percent], 0)] [mkpdep (if z then s2l "%.z.e" else s2l "%,v") false] (Some 9) true] else [], s).
Definition tame_world (s : N) : bool :=
  let '(rs, s) := gen_layers [0; 0; 1; 1; 2; 3] s in
  let '(any, s) := gen_any s in
  let '(first, s) := chance 50 s in
  let '(there, s) := subset 40 (map (fun k => c_dot :: "f"%char :: layer k) [1; 2; 3; 4; 4]) s in
  let '(old, s) := subset 30 (map (fun k => c_dot :: "f"%char :: layer k ++ s2l ",v") [1; 2; 3; 4]) s in
  let '(files, s) := subset 20 (map (fun k => c_dot :: "f"%char :: layer k) [1; 2; 3; 4]) s in
  t_complete (if first then any ++ rs else rs ++ any) 90 (fun n => b_in n (there ++ old)) files (c_dot :: "f"%char :: layer 0).
Definition complete_hold (l : list N) : bool := forallb tame_world l.
Example complete_1 : unit. Proof. computes (complete_hold (seeds 400 5)). Qed.
Example complete_few : complete_hold (seeds 2 6) = true. Proof. vm_compute. reflexivity. Qed.

(** C31. *)
Definition gen_def (s : N) : (rule * bool) * N :=
  let '(t, s) := pick ([], 0) (map (fun t : string => (s2l t, 0)) ["%.o"; "%.c"; "%.o"]) s in
  let '(ds, s) := several 0 3 (gen_dep (map s2l ["%.c"; "%.y"])) s in
  let '(c, s) := roll 9 s in
  let '(o, s) := chance 40 s in
  ((mkrule [t] ds (Some c) false, o), s).
Definition definitions (s : N) : list (rule * bool) := fst (several 2 9 gen_def s).
Definition definitions_test (s : N) : bool :=
  if list_eq_dec rule_dec (fold_left (fun l d => new_pattern_rule (fst d) (snd d) l) (definitions s) []) (survivors (definitions s) (seq 0 (length (definitions s)))) then true else false.
Definition definitions_hold (l : list N) : bool := forallb definitions_test l.
Example definitions_1 : unit. Proof. computes (definitions_hold (seeds 200 3)). Qed.
Example definitions_few : definitions_hold (seeds 4 3) = true. Proof. vm_compute. reflexivity. Qed.

(** C50. *)
Definition w_suffixes : list str := map s2l [".c"; ".o"; ".a"; ".y"; ".c"].
Definition gen_files (s : N) : (str -> option (option nat * bool)) * N :=
  let '(l, s) := draw 30 (fun s => let '(a, s) := chance 60 s in let '(b, s) := chance 75 s in let '(c, s) := chance 30 s in (if a then Some (if b then Some 7 else None, c) else None, s)) s in
  ((fun n => match find (fun k => str_eqb n (nth k (flat_map (fun a => a :: map (fun b => a ++ b) w_suffixes) w_suffixes) [])) (seq 0 30) with Some k => nth k l None | None => None end), s).
Definition suffixes_world (s : N) : bool :=
  let '(files, s) := gen_files s in
  let '(posix, s) := chance 50 s in
  let '(suffixes, s) := subset 70 w_suffixes s in
  let '(l, s) := several 0 4 (gen_rule [(s2l "%.o", 0); (s2l "%.c", 0); (s2l "%", 0); (s2l "(%.o)", 1)] (map s2l ["%.c"; "%.o"; "%.y"])) s in
  t_suffixes files posix suffixes l.
Definition suffixes_hold (l : list N) : bool := forallb suffixes_world l.
Example suffixes_1 : unit. Proof. computes (suffixes_hold (seeds 150 9)). Qed.
Example suffixes_few : suffixes_hold (seeds 1 9) = true. Proof. vm_compute. reflexivity. Qed.
