(** Which description belongs to which rule. *)
From Verif Require Import Base M_Desc.
Open Scope string_scope.
Open Scope list_scope.
Open Scope nat_scope.

(** The comment of a line: from the first # that is neither quoted nor inside a variable reference. *)
Inductive mode := Txt (n : nat) | Dol | Ref (o c : ascii) (d : nat).
Definition closing (o : ascii) : ascii := if o =?c c_lparen then c_rparen else c_rbrace.
Fixpoint comment (m : mode) (s : str) : option str :=
  match s with
  | [] => None
  | x :: s' =>
      match m with
      | Txt n => if x =?c c_dollar then comment Dol s'
                 else if x =?c "#" then if Nat.even n then Some s else comment (Txt 0) s'
                 else if x =?c c_bslash then comment (Txt (S n)) s' else comment (Txt 0) s'
      | Dol => if (x =?c c_lparen) || (x =?c c_lbrace) then comment (Ref x (closing x) 0) s'
               else if x =?c c_bslash then comment (Txt 1) s' else comment (Txt 0) s'
      | Ref o c d => if x =?c o then comment (Ref o c (S d)) s'
                     else if x =?c c then match d with O => comment (Txt 0) s' | S d' => comment (Ref o c d') s' end
                     else comment (Ref o c d) s'
      end
  end.
Definition describes (line d : str) : Prop := comment (Txt 0) line = Some (s2l "#: " ++ d).
Definition quiet (line : str) : Prop := forall d, ~ describes line d.

(** [reads lenient n w p l said]: after line [n] of a makefile, with the rule [w] (names and description) not yet
    ended and the description [p] read since the last rule, the events [l] up to the end of the makefile say
    [said].  A rule has the description read since the rule before it.  Between a rule and the statement
    that ends it there is at most one description, and none is read before another makefile is included.
    Only a [lenient] makefile may have descriptions that no rule uses. *)
Definition flush (w : option (list str * option str)) : list (list str * option str) := match w with Some x => [x] | None => [] end.
Inductive reads : bool -> nat -> option (list str * option str) -> option str -> list event -> list (list str * option str) -> Prop :=
| r_end z n w p : (z = true \/ p = None) -> reads z n w p [] (flush w)
| r_quiet z n m w p line l said : n < m -> quiet line -> reads z m w p l said -> reads z n w p (Text line m :: l) said
| r_describes z n m w p line d l said : n < m -> describes line d -> p = None \/ (z = true /\ w = None) ->
    reads z m w (Some d) l said -> reads z n w p (Text line m :: l) said
| r_ends z n w p l said : reads z n None p l said -> reads z n w p (Ends :: l) (flush w ++ said)
| r_rule z n p name names l said : reads z n (Some (name :: names, p)) None l said -> reads z n None p (Targets (name :: names) n :: l) said
| r_norule z n p l said : reads z n None p l said -> reads z n None p (Targets [] n :: l) said
| r_nested z n l0 said0 l said : reads false 0 None None l0 said0 -> reads z n None None l said ->
    reads z n None None (Open :: l0 ++ Close :: l) (said0 ++ said).
