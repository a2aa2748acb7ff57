(** The line of a rule. *)
From Verif Require Import Base M_Var S_Expand S_Eval S_Quote S_Def S_Seq.
Open Scope string_scope.
Open Scope list_scope.
Open Scope nat_scope.

(** Text with complete references and without a semicolon or a number sign outside of them. *)
Inductive whole : str -> Prop :=
| wh_nil : whole []
| wh_char c t : ~ In c (s2l "$;#") -> whole t -> whole (c :: t)
| wh_short d t : d <> c_lparen -> d <> c_lbrace -> whole t -> whole (c_dollar :: d :: t)
| wh_long op cl b t : brackets op cl -> nested op cl b -> whole t -> whole (c_dollar :: op :: b ++ cl :: t).

(** A word: no blank, equals sign or colon outside of references, unless quoted by a backslash. *)
Inductive word : str -> Prop :=
| wo_nil : word []
| wo_char c w : isblank c = false -> ~ In c (s2l "=:;$\") -> word w -> word (c :: w)
| wo_quoted c w : In c (s2l ":;=\") -> word w -> word (c_bslash :: c :: w)
| wo_bslash w : (forall c r, w = c :: r -> ~ In c (s2l ":;=\")) -> word w -> word (c_bslash :: w)
| wo_short d w : d <> c_lparen -> d <> c_lbrace -> word w -> word (c_dollar :: d :: w)
| wo_long op cl b w : brackets op cl -> nested op cl b -> word w -> word (c_dollar :: op :: b ++ cl :: w).

Definition blanks (b : str) : Prop := forall c, In c b -> isblank c = true.
(** A text and its words. *)
Inductive layout : str -> list str -> Prop :=
| la_end b : blanks b -> layout b []
| la_word b w t ws : blanks b -> word w -> w <> [] -> (forall c r, t = c :: r -> isblank c = true) -> layout t ws -> layout (b ++ w ++ t) (w :: ws).
(** A colon may follow: it is not quoted and makes no "&:". *)
Definition colon_may_follow (t : str) : Prop := forall c r, rev t = c :: r -> c <> c_bslash /\ c <> "&"%char.

(** Behind the colon of a target-specific assignment: modifiers and a definition.  [over]: override is one of them. *)
Definition definition (t : str) : Prop := exists n f v, defines t n f v.
Definition space_first (t : str) : Prop := forall c r, t = c :: r -> isspace c = true.
Inductive assigns : str -> bool -> str -> Prop :=
| as_definition t : definition t -> assigns t false t
| as_modifier (m : string) t over u : In m ["export"; "override"; "private"] -> ~ definition (s2l m ++ t) -> space_first t -> trim t <> [] ->
    assigns (trim t) over u -> assigns (s2l m ++ t) (over || String.eqb m "override") u
| as_define (m : string) t : In m ["define"; "undefine"] -> ~ definition (s2l m ++ t) -> space_first t -> assigns (s2l m ++ t) false (trim t).

(** The text up to the first unquoted [c], with quoting backslashes removed, and the text behind it. *)
Definition upto (c : ascii) (s : str) : str * option str :=
  match unq (fun x => x =?c c) 0 s with (a, Some (_ :: b)) => (a, Some b) | (a, _) => (a, None) end.
(** An expanded word of the targets, when no colon and, unless there is a recipe already, no semicolon is in it. *)
Definition target_text (recipe : option str) (e x : str) : Prop :=
  exists y, match recipe with Some _ => y = e | None => upto ";"%char e = (y, None) end /\ upto c_colon y = (x, None).
Definition spaced (l : list str) : str := flat_map (fun x => x ++ [c_sp]) l.
Definition of_text (s : str) : option str := match s with [] => None | _ => Some s end.
Definition strip (s : str) : str := rev (trim (rev (trim s))).
