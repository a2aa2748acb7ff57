(** Tests of what S_Define says, for definitions given as trees. *)
From Verif Require Import Base M_Define S_Define.
Open Scope string_scope.
Open Scope list_scope.
Open Scope nat_scope.

Fixpoint trimmed (l : str) : str := match l with c :: l' => if isspace c then trimmed l' else l | [] => [] end.
Fixpoint split_word (l : str) : str * str := match l with [] => ([], []) | c :: l' => if isblank c then ([], l) else let '(a, b) := split_word l' in (c :: a, b) end.
Definition begins (prefix : ascii) (w l : str) : bool := match l with [] => false | c :: _ => negb (c =?c prefix) && str_eqb (fst (split_word (trimmed l))) w end.
Definition behind (l : str) : str := snd (split_word (trimmed l)).
Inductive tree := End | Single (l : str) (t : tree) | Block (d : str) (a : tree) (e : str) (t : tree).
Fixpoint flat (t : tree) : list str := match t with End => [] | Single l t => l :: flat t | Block d a e t => d :: flat a ++ e :: flat t end.
Definition single (l : str) : bool := negb (existsb (fun c => c =?c c_nl) l).
Definition uncommented (l : str) : bool := negb (existsb (fun c => c =?c ascii_of_nat 35) l).
Fixpoint good (prefix : ascii) (t : tree) : bool :=
  match t with
  | End => true
  | Single l t => single l && negb (begins prefix (s2l "define") l) && negb (begins prefix (s2l "endef") l) && good prefix t
  | Block d a e t => single d && begins prefix (s2l "define") d && good prefix a && single e && uncommented e && begins prefix (s2l "endef") e && good prefix t
  end.
Definition quiet (prefix : ascii) (l : str) : bool := negb (begins prefix (s2l "endef") l) || forallb isspace (behind l).
Fixpoint lines_eqb (a b : list str) : bool := match a, b with [], [] => true | x :: a', y :: b' => str_eqb x y && lines_eqb a' b' | _, _ => false end.
(** C70_verbatim, C70_warning, C70_missing. *)
Definition t_define (posix : bool) (prefix : ascii) (t : tree) (e : str) (rest : list str) : bool :=
  negb (good prefix t && single e && uncommented e && begins prefix (s2l "endef") e) ||
  (match body posix prefix 1 empty 0 (flat t ++ e :: rest) with
   | Value v rest' w => str_eqb v (joined (flat t)) && lines_eqb rest' rest && Bool.eqb (w =? 0) (forallb (quiet prefix) (flat t ++ [e]))
   | _ => false
   end && match body posix prefix 1 empty 0 (flat t) with Missing => true | _ => false end).
