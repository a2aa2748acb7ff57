(** Quoting of dollar signs, written without the model. *)
From Verif Require Import Base.

(** Every dollar sign doubled. *)
Definition double_dollars (s : str) : str :=
  flat_map (fun c => if c =?c c_dollar then [c_dollar; c_dollar] else [c]) s.

(** Texts in which the brackets of one kind are balanced. *)
Inductive nested (op cl : ascii) : str -> Prop :=
| ne_nil : nested op cl []
| ne_char : forall c t, c <> op -> c <> cl -> nested op cl t -> nested op cl (c :: t)
| ne_paren : forall a b, nested op cl a -> nested op cl b -> nested op cl (op :: a ++ cl :: b).

(** ... and every comma is inside brackets. *)
Inductive one_arg (op cl : ascii) : str -> Prop :=
| oa_nil : one_arg op cl []
| oa_char : forall c t, c <> op -> c <> cl -> c <> c_comma -> one_arg op cl t -> one_arg op cl (c :: t)
| oa_paren : forall a b, nested op cl a -> one_arg op cl b -> one_arg op cl (op :: a ++ cl :: b).

Fixpoint commas (l : list str) : str :=
  match l with
  | [] => []
  | [a] => a
  | a :: l' => a ++ c_comma :: commas l'
  end.
