(** What second expansion is to give. *)
From Verif Require Import Base S_Text M_Auto S_Auto M_Rules S_Rules M_Second.
Open Scope string_scope.
Open Scope list_scope.
Open Scope nat_scope.

(** In the text of a static pattern rule, a percent sign is the stem. *)
Definition stars (s : str) : str := flat_map (fun c => if c =?c c_percent then s2l "$*" else [c]) s.
Definition text_of (d : item) : str := if i_static d then stars (i_name d) else i_name d.
(** As the automatic variables see it: what is still to be expanded and what is extra does not count, nothing is newer. *)
Definition seen (d : item) : adep := {| a_name := i_name d; a_order := i_order d; a_changed := false; a_2nd := i_2nd d; a_ignored := i_extra d |}.
Definition new_item (stem : option str) (x : dep) : item :=
  {| i_name := d_name x; i_order := d_order x; i_2nd := false; i_static := false; i_stem := stem; i_extra := false |}.
(** The prerequisites that a text of names stands for. *)
Definition named (stem : option str) (l : list dep) : list item :=
  map (new_item stem) (match stem with Some s => flat_map (instance s) l | None => l end).

(** The same prerequisite; one that is order-only may have become normal if a normal one has its name. *)
Definition raised (N : str -> Prop) (d e : item) : Prop :=
  i_name d = i_name e /\ i_2nd d = i_2nd e /\ i_static d = i_static e /\ i_stem d = i_stem e /\ i_extra d = i_extra e /\
  (i_order d = i_order e \/ (i_order d = true /\ i_order e = false /\ i_2nd d = false /\ i_extra d = false /\ N (i_name d))).
Definition normal_in (l : list item) : str -> Prop := normal (map seen l).

(** As record_files makes them: a text is neither order-only nor extra; stems are parts of names. *)
Definition proper_item (d : item) : Prop := (i_2nd d = true -> i_order d = false /\ i_extra d = false) /\ (forall s, i_stem d = Some s -> no_space s).

Section Spec.
  Variable always : bool.
  Variable suffixes : list str.
  Variable ex : values -> str -> str.
  Variable split : str -> list dep.

  (** The automatic variables while [d] is expanded, with [before] expanded already and [after] to come. *)
  Definition has_values (f : file) (before : list item) (d : item) (after : list item) (a : values) : Prop :=
    let all := map seen (before ++ d :: after) in
    t_at a = at_value (f_name f) /\ t_percent a = percent_value (f_name f) /\
    t_star a = match i_stem d with Some s => s | None => star_value (f_stem f) (f_name f) suffixes end /\
    listing all (in_caret all) (v_caret (t_lists a)) /\ listing all (in_bar all) (v_bar (t_lists a)) /\
    listing all (fun j => always = true /\ in_caret all j) (v_qmark (t_lists a)) /\
    (exists now after', Forall2 (raised (normal_in (before ++ d :: after))) before now /\ Forall2 (raised (normal_in (before ++ d :: after))) after after' /\
       (let all' := map seen (now ++ d :: after') in listing all' (in_plus all') (v_plus (t_lists a))) /\
       t_less a = less_value (map seen now)).

  (** Each text is replaced by its names, in place. *)
  Inductive expands (f : file) : list item -> list item -> list item -> Prop :=
  | ex_end before : expands f before [] before
  | ex_plain before d l out : i_2nd d = false -> expands f (before ++ [d]) l out -> expands f before (d :: l) out
  | ex_later before d l a out : i_2nd d = true -> has_values f before d l a ->
      expands f (before ++ named (i_stem d) (split (ex a (text_of d)))) l out -> expands f before (d :: l) out.
End Spec.
