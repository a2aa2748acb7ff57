(** C40 and C49, computed for generated search paths.  Nothing is proved of the model here; Properties_VpathCheck says that all of these tests must succeed. *)
From Coq Require Import NArith.
From Verif Require Import Base S_Vpath M_Vpath S_VpathCheck W_Random.
Open Scope string_scope.
Open Scope list_scope.
Open Scope nat_scope.

Definition w_dirs : list str := map s2l ["a"; "b"; "a/"; "."; "./"; "c/d"; "../e"; "a"; "b"].
Definition w_seps : list str := map s2l [" "; ":"; "  "; ": "; "::"] ++ [[c_tab]].
Definition w_pats : list str := map s2l ["%.c"; "%.c"; "x%"; "x.c"; "%"; "d/%.c"; "a%c"; "\%.c"; "x%.h"; "q\\.c"; "lib%.a"; "%.so"].
Definition w_files : list str := map s2l ["x.c"; "y.c"; "x.h"; "d/x.c"; "d/y.h"; "x"; "%.c"; "q\.c"; "/x.c"; "d//x.c"; "dxc"; "d/"; "a.c"].
Definition some_dirs (l : list str) (s : N) : str * N := let '(l, s) := several 0 4 (fun s => let '(d, s) := pick [] l s in let '(p, s) := pick [] w_seps s in (d ++ p, s)) s in let '(cut, s) := chance 60 s in
  (if cut then removelast (concat l) else concat l, s).
Definition dirs_text : N -> str * N := some_dirs w_dirs.
Definition line_text (s : N) : str * N :=
  let '(k, s) := roll 20 s in
  let '(p, s) := pick [] w_pats s in
  let '(d, s) := dirs_text s in
  let '(lead, s) := chance 20 s in
  ((if lead then [c_sp] else []) ++ match k with 0 => [] | 1 | 2 | 3 => p | 4 => p ++ [c_sp; c_tab] | 5 => p ++ s2l " :" | _ => p ++ c_sp :: d end, s).
(** A world: which names exist, are listed, are mentioned. *)
Definition hash_of (x : str) (s : N) : N := fold_left (fun h c => next (h + N_of_ascii c * 7919)%N) x s.
Definition coin (p : N) (x : str) (s : N) : bool := (N.shiftr (hash_of x s) 16 mod 100 <? p)%N.
Definition w_stat (s : N) (x : str) : option nat := if coin 45 x s then Some (length x) else None.
Definition w_listed (s : N) (d f : str) : bool := coin 55 (d ++ c_nl :: f) (s + 1).
Definition w_lookup (s : N) (x : str) : option (bool * option nat) :=
  if coin 25 x (s + 2) then Some (coin 40 x (s + 3), if coin 50 x (s + 4) then Some (100 + length x) else None) else None.
Definition w_mtime (s : N) (x : str) : option nat := if coin 20 x (s + 5) then Some (length x) else None.
Definition one_search (s : N) : bool :=
  let '(lines, s) := several 0 5 line_text s in
  let '(value, s) := dirs_text s in
  let '(gvalue, s) := dirs_text s in
  let '(file, s) := pick [] w_files s in
  t_vpath (w_lookup s) (w_listed s) (w_stat s) lines value gvalue file.
Definition quoted_search (s : N) : bool :=
  let '(lines, s) := several 1 3 (fun s => let '(p, s) := pick [] (map s2l ["%.c"; "\%.c"; "%.c"; "x.c"]) s in let '(b, s) := chance 50 s in (if b then p else p ++ s2l " a", s)) s in
  t_vpath (w_lookup s) (fun _ _ => true) (fun x => Some (length x)) lines [] [] (s2l "x.c").
Definition std_library (s : N) : bool :=
  let '(pats, s) := several 1 4 (pick [] (map s2l ["lib%.so"; "lib%.a"; "x%"; "none"; "%"])) s in
  let '(std, s) := several 2 2 (pick [] (map s2l ["/lib"; "/usr/lib"; "/opt/lib"])) s in
  let '(lib, s) := pick [] (map s2l ["m"; "x"; "y.c"]) s in
  t_library (w_lookup s) (w_listed s) (w_stat s) (w_mtime s) std 60 [] [] [] lib pats.
Definition one_library (s : N) : bool :=
  let '(lines, s) := several 0 4 line_text s in
  let '(value, s) := dirs_text s in
  let '(pats, s) := several 0 4 (pick [] (map s2l ["lib%.so"; "lib%.a"; "x%"; "none"; "%"; "/l/%.a"; "d/%"; "no\%"])) s in
  let '(std, s) := several 0 3 (pick [] (map s2l ["/lib"; "/usr/lib"; "/opt/lib"])) s in
  let '(lib, s) := pick [] (map s2l ["m"; "x"; "y.c"]) s in
  t_library (w_lookup s) (w_listed s) (w_stat s) (w_mtime s) std 60 lines value [] lib pats.
Definition one_gpath (s : N) : bool :=
  let '(gvalue, s) := some_dirs (s2l "/" :: w_dirs) s in
  let '(value, s) := dirs_text s in
  let '(file, s) := pick [] (map s2l ["/x"; "a/x.c"; "b/x.c"; "c/d/x.c"; "ab/c"; "./x"; "../e/f"]) s in
  let '(len, s) := roll 5 s in
  t_gpath [] value gvalue file len.
Definition searches_hold (l : list N) : bool := forallb one_search l.
Definition libraries_hold (l : list N) : bool := forallb one_library l.
Definition gpaths_hold (l : list N) : bool := forallb one_gpath l.
Definition quoted_hold (l : list N) : bool := forallb quoted_search l.
Definition stds_hold (l : list N) : bool := forallb std_library l.
Example vsearches_1 : unit. Proof. computes (searches_hold (seeds 800 1)). Qed.
Example vsearches_2 : unit. Proof. computes (searches_hold (seeds 800 50000001)). Qed.
Example libraries_1 : unit. Proof. computes (libraries_hold (seeds 500 2)). Qed.
Example gpaths_1 : unit. Proof. computes (gpaths_hold (seeds 300 3)). Qed.
Example quoted_1 : unit. Proof. computes (quoted_hold (seeds 100 4)). Qed.
Example stds_1 : unit. Proof. computes (stds_hold (seeds 200 5)). Qed.
Example vsearches_few : searches_hold (seeds 6 77) = true. Proof. vm_compute. reflexivity. Qed.
Example libraries_few : libraries_hold (seeds 6 77) = true. Proof. vm_compute. reflexivity. Qed.
