(** C58, computed for generated texts.  Nothing is proved of the model here; Properties_SeqCheck says that all of these tests must succeed. *)
From Coq Require Import NArith.
From Verif Require Import Base S_Quote S_Seq M_Seq S_SeqCheck W_Random.
Open Scope string_scope.
Open Scope list_scope.
Open Scope nat_scope.

Definition w_bits : list str :=
  map s2l ["a"; "b.c"; "*.c"; "q?"; "[x]"; "("; ")"; "l.a("; "x)"; "./"; ".//"; "/"; "."; " "; "  "; "|"; "\"; "\\"; "\|"; "\ "; "~"; "~u"; ":"; "m*"; " a"; "l(m"; "l(*)"; "l((e))"; "z[1"; "]"] ++ [[c_tab]; [c_nl]; s2l " b"; s2l " "; s2l "a b"; s2l "l(a b) "; s2l " ./c"; [c_sp; c_nl; c_sp]; s2l "./l(a ./b *.c ) "; s2l "x. "].
Definition w_glob (n : str) : gres :=
  match length n mod 4 with 0 => GFound [s2l "f1"; n] | 1 => GNoMatch | 2 => GOther | _ => GFound [s2l "g"] end.
Definition w_tilde (n : str) : option str := if length n <? 4 then Some (s2l "/h" ++ tl n) else None.
Definition w_members (a p : str) : list str := match length (a ++ p) mod 3 with 0 => [] | 1 => [s2l "m1"] | _ => [s2l "m1"; s2l "m2"] end.
Definition one_text (s : N) : bool :=
  let '(bits, s) := several 1 9 (pick [] w_bits) s in
  let '(k, s) := roll 3 s in
  let '(oneword, s) := chance 15 s in
  let '(nostrip, s) := chance 25 s in
  let '(noar, s) := chance 25 s in
  let '(noglob, s) := chance 25 s in
  let '(exist_, s) := chance 25 s in
  let '(nocache, s) := chance 25 s in
  let '(pre, s) := chance 25 s in
  t_seq (fun c => match k with 0 => false | 1 => c =?c c_pipe | _ => (c =?c c_pipe) || (c =?c c_colon) end) oneword nostrip noar noglob exist_ nocache (if pre then Some (s2l "p/") else None) w_tilde w_glob w_members (concat bits).
Definition text_of (bits : list str) (s : N) : str := concat (fst (several 1 9 (pick [] bits) s)).
Definition w_groups : list str := map s2l ["l("; "a"; " "; "b"; ")"; "(a"; "l(a b)"; "l(a b c)"; " l(a) "; "b) "; " c) "; " ("; "m\|("].
Definition w_dots : list str := map s2l ["./"; " "; "././"; ".//"; "a"; " .";  "./a"; "/"; " ./ "; "  "].
Definition w_bars : list str := map s2l ["a"; " "; "|"; " b "; "| |"; "*.c"; " ./c"; "~"; " l(a b)"; "\\"].
Definition plain_text (t : str) : bool := t_seq (fun c => c =?c c_pipe) false false false true false false None w_tilde w_glob w_members t.
Definition texts_hold (l : list N) : bool := forallb one_text l.
Definition groups_hold (l : list N) : bool := forallb (fun s => plain_text (text_of w_groups s)) l.
Definition dots_hold (l : list N) : bool := forallb (fun s => plain_text (text_of w_dots s)) l.
Definition prereqs_hold (l : list N) : bool := forallb (fun s => t_prereqs w_tilde w_glob w_members (text_of w_bars s)) l.
Definition wildcards_hold (l : list N) : bool := forallb (fun s => t_wildcard w_tilde w_glob w_members (text_of w_bits s)) l.
Example texts_1 : unit. Proof. computes (texts_hold (seeds 600 1)). Qed.
Example texts_2 : unit. Proof. computes (texts_hold (seeds 600 8000001)). Qed.
Example groups_1 : unit. Proof. computes (groups_hold (seeds 400 3)). Qed.
Example dots_1 : unit. Proof. computes (dots_hold (seeds 400 4)). Qed.
Example prereqs_1 : unit. Proof. computes (prereqs_hold (seeds 300 5)). Qed.
Example wildcards_1 : unit. Proof. computes (wildcards_hold (seeds 300 6)). Qed.
Example texts_few : texts_hold (seeds 8 77) = true. Proof. vm_compute. reflexivity. Qed.
Example prereqs_few : prereqs_hold (seeds 8 77) = true. Proof. vm_compute. reflexivity. Qed.
