(** C67, computed for generated targets.  Nothing is proved of the model here; Properties_SecondCheck says that all of these tests must succeed. *)
From Coq Require Import NArith.
From Verif Require Import Base S_Text M_Auto M_Rules M_Second S_Second S_SecondCheck W_Random.
Open Scope string_scope.
Open Scope list_scope.
Open Scope nat_scope.

(** An expansion of automatic variables: [$+] and [$<] only if [full]. *)
Fixpoint w_ex (full : bool) (a : values) (t : str) : str :=
  match t with
  | c :: ((d :: t') as u) =>
      if c =?c "$"%char then
        (if d =?c "@"%char then t_at a else if d =?c "%"%char then t_percent a else if d =?c "*"%char then t_star a
         else if d =?c "^"%char then v_caret (t_lists a) else if d =?c "|"%char then v_bar (t_lists a) else if d =?c "?"%char then v_qmark (t_lists a)
         else if full then (if d =?c "<"%char then t_less a else if d =?c "+"%char then v_plus (t_lists a) else []) else []) ++ w_ex full a t'
      else c :: w_ex full a u
  | _ => t
  end.
(** Names that end in ! are order-only. *)
Definition w_split (order : bool) (t : str) : list dep := map (fun w => mkdep w (order && (last w "a"%char =?c "!"%char))) (words t).
Definition w_texts : list str := map s2l ["$^"; "$@.d x!"; "%.c $*"; "$| %"; "a$*b %-%.h"; "$? y"; "%"; "$% c!"; "$< $+"; "$<.h"; "$@"; "b a!"; ""; "$+"].
Definition w_names : list str := map s2l ["a"; "b"; "a!"; "x!"; "c"; "l.a(m)"; "%"; "x.c"].
Definition w_stem (s : N) : option str * N := let '(k, s) := roll 4 s in (nth k [Some (s2l "x"); Some (s2l "st"); None] None, s).
Definition w_item (order : bool) (s : N) : item * N :=
  let '(later, s) := chance 45 s in
  let '(n, s) := pick [] w_names s in
  let '(t, s) := pick [] w_texts s in
  let '(stem, s) := w_stem s in
  let '(o, s) := chance 35 s in
  let '(x, s) := chance 12 s in
  let '(st, s) := chance 70 s in
  (if later then mkitem t false true (match stem with Some _ => st | None => false end) stem false else mkitem n (order && o) false false stem x, s).
Definition w_file (order : bool) (s : N) : file * N :=
  let '(l, s) := several 1 6 (w_item order) s in
  let '(n, s) := pick [] (map s2l ["x.o"; "t"; "a"; "l.a(m.o)"]) s in
  let '(stem, s) := w_stem s in
  let '(tg, s) := chance 70 s in
  let '(k, s) := roll 5 s in
  (mkfile n l stem tg (nth k [Some None; Some (Some (s2l "e a")); Some (Some (s2l "$e"))] None), s).
Definition one_file (order : bool) (s : N) : bool :=
  let '(f, s) := w_file order s in
  let '(always, s) := chance 50 s in
  let '(k, s) := roll 9 s in
  t_expand always (map s2l [".o"; ".c"]) (w_ex (negb order)) (w_split order) f (mksizes k k k).
Definition files_hold (order : bool) (l : list N) : bool := forallb (one_file order) l.
Definition one_extra (s : N) : bool :=
  let '(f, s) := w_file true s in
  let '(k, s) := roll 4 s in
  t_extra (fun t => map (fun c => if c =?c "$"%char then c_sp else c) t) (w_split true) (nth k [Some (s2l "g$h!"); Some (s2l "t"); Some []] None) f.
Definition extra_hold (l : list N) : bool := forallb one_extra l.
Example files_1 : unit. Proof. computes (files_hold true (seeds 150 1)). Qed.
Example files_2 : unit. Proof. computes (files_hold false (seeds 150 70001)). Qed.
Example files_few : files_hold true (seeds 1 5) && files_hold false (seeds 1 9) = true. Proof. vm_compute. reflexivity. Qed.
Example extra_1 : unit. Proof. computes (extra_hold (seeds 100 3)). Qed.
Example extra_few : extra_hold (seeds 4 8) = true. Proof. vm_compute. reflexivity. Qed.
