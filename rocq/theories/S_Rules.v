(** What the rules of a makefile say about a target. *)
From Verif Require Import Base S_Quote S_Seq M_Rules.
Open Scope string_scope.
Open Scope list_scope.
Open Scope nat_scope.

Definition pct (c : ascii) : bool := c =?c c_percent.
(** A name as written and the name meant. *)
Definition tname (n : str) : str := fst (unq pct 0 n) ++ match snd (unq pct 0 n) with Some q => q | None => [] end.
Definition is_pattern (n : str) : bool := match snd (unq pct 0 n) with Some _ => true | None => false end.
(** A rule all of whose targets are files, or all of whose targets are patterns. *)
Definition explicit (r : rule) : bool := forallb (fun n => negb (is_pattern n)) (r_targets r).
Definition implicit (r : rule) : bool := forallb is_pattern (r_targets r).
Definition proper (r : rule) : Prop :=
  r_targets r <> [] /\ (explicit r = true \/ implicit r = true) /\
  Forall (fun n => clean (tname n) = tname n) (r_targets r).

(** The mentions of a target: the explicit rules that name it, as often as they name it. *)
Definition mentions (t : str) (l : list rule) : list rule :=
  flat_map (fun r => if explicit r then map (fun _ => r) (filter (fun n => str_eqb t (tname n)) (r_targets r)) else []) l.

(** The prerequisites a rule gives a target. *)
Definition stem_in (pre post t : str) (stem : str) : Prop := t = pre ++ stem ++ post.
Definition instance (stem : str) (x : dep) : list dep :=
  match unq pct 0 (d_name x) with
  | (p, Some (_ :: q)) => match p ++ stem ++ q with [] => [] | n => [mkdep n (d_order x)] end
  | _ => [x]
  end.
Inductive gives (t : str) (r : rule) : list dep -> Prop :=
| gives_plain : r_pattern r = None -> gives t r (r_deps r)
| gives_stem pre post stem : r_pattern r = Some (pre, post) -> stem_in pre post t stem -> gives t r (flat_map (instance stem) (r_deps r))
| gives_none pre post : r_pattern r = Some (pre, post) -> ~ (exists stem, stem_in pre post t stem) -> gives t r [].

(** The prerequisites of rules with a recipe come first, the last rule's before the others'; then those
    of the rules without a recipe, in order. *)
Definition with_recipe (x : rule * list dep) : bool := match r_cmds (fst x) with Some _ => true | None => false end.
Definition all_deps (init : list dep) (l : list (rule * list dep)) : list dep :=
  concat (rev (map snd (filter with_recipe l))) ++ init ++ concat (map snd (filter (fun x => negb (with_recipe x)) l)).
(** The last recipe. *)
Inductive last_recipe (init : option recipe) : list rule -> option recipe -> Prop :=
| lr_none l : Forall (fun r => r_cmds r = None) l -> last_recipe init l init
| lr_some l1 r c l2 : r_cmds r = Some c -> Forall (fun r => r_cmds r = None) l2 -> last_recipe init (l1 ++ r :: l2) (Some c).
