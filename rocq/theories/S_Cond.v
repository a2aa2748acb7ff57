(** Conditionals as structured programs. *)
From Verif Require Import Base S_Expand M_Cond.
Open Scope string_scope.
Open Scope list_scope.

Definition spaces (s : str) : Prop := Forall (fun c => isspace c = true) s.
Definition no_space (s : str) : Prop := Forall (fun c => isspace c = false) s.

(** Line [t]: the word [w], then [a] from its first character that is not white space. *)
Definition word_then (t w a : str) : Prop :=
  exists s, t = w ++ s ++ a /\ w <> [] /\ no_space w /\ spaces s /\
    (a = [] \/ (s <> [] /\ exists c r, a = c :: r /\ isspace c = false)).

Definition kind_word (k : ckind) : str :=
  match k with k_ifdef => s2l "ifdef" | k_ifndef => s2l "ifndef" | k_ifeq => s2l "ifeq" | k_ifneq => s2l "ifneq" end.
Definition negated (k : ckind) : bool := match k with k_ifndef | k_ifneq => true | _ => false end.

(** Text with blanks only at one end. *)
Definition ends_solid (s : str) : Prop := s = [] \/ exists r c, s = r ++ [c] /\ isblank c = false.
Definition starts_solid (s : str) : Prop := s = [] \/ exists c r, s = c :: r /\ isspace c = false.
Definition blank_text (s : str) : Prop := Forall (fun c => isblank c = true) s.

Section Sem.
  Variable state : Type.
  Variable expand : state -> str -> str.
  Variable nonempty : state -> str -> bool.
  Variable act : state -> rline -> state.
  Variable define : state -> str -> list rline -> state.

  (** The two texts an ifeq compares, in its two forms; [x] is ignored. *)
  Inductive compares : str -> str -> str -> Prop :=
  | cmp_paren : forall a bl sp b x, one_arg c_lparen c_rparen (a ++ bl) -> ends_solid a -> blank_text bl ->
      spaces sp -> starts_solid b -> nested c_lparen c_rparen b ->
      compares (c_lparen :: a ++ bl ++ c_comma :: sp ++ b ++ c_rparen :: x) a b
  | cmp_quote : forall q a sp q' b x, q = c_dq \/ q = c_sq -> q' = c_dq \/ q' = c_sq -> ~ In q a -> ~ In q' b -> spaces sp ->
      compares (q :: a ++ q :: sp ++ q' :: b ++ q' :: x) a b.

  (** The truth of a condition in a state. *)
  Inductive condition (sg : state) : ckind -> str -> bool -> Prop :=
  | c_defined : forall k args n s, (k = k_ifdef \/ k = k_ifndef) -> expand sg args = n ++ s -> no_space n -> spaces s ->
      condition sg k args (xorb (nonempty sg n) (negated k))
  | c_equal : forall k args a b, (k = k_ifeq \/ k = k_ifneq) -> compares args a b ->
      expand sg a = expand sg b -> condition sg k args (negb (negated k))
  | c_different : forall k args a b, (k = k_ifeq \/ k = k_ifneq) -> compares args a b ->
      expand sg a <> expand sg b -> condition sg k args (negated k).

  (** Programs: lines to act on, definitions, and conditionals with any number of "else if"
      branches. *)
  Inductive prog :=
  | PNil
  | PAct (l : rline) (p : prog)
  | PDefine (t : str) (body : list rline) (e : str) (p : prog)
  | PIf (t : str) (k : ckind) (args : str) (p : prog) (e : tail) (rest : prog)
  with tail :=
  | TEnd (t : str)
  | TElse (t : str) (p : prog) (e : str)
  | TElif (t : str) (k : ckind) (args : str) (p : prog) (e : tail).

  Fixpoint lines (p : prog) : list rline :=
    match p with
    | PNil => []
    | PAct l p => l :: lines p
    | PDefine t body e p => RDefine t :: body ++ ROther e :: lines p
    | PIf t _ _ p e rest => ROther t :: lines p ++ tail_lines e ++ lines rest
    end
  with tail_lines (e : tail) : list rline :=
    match e with
    | TEnd t => [ROther t]
    | TElse t p e => ROther t :: lines p ++ [ROther e]
    | TElif t _ _ p e => ROther t :: lines p ++ tail_lines e
    end.

  (** The lines are what they are said to be. *)
  Definition plain_line (l : rline) : Prop :=
    match l with
    | RRecipe _ | RAssign _ => True
    | RDefine _ => False
    | ROther t => exists w a, word_then t w a /\
        ~ In w [s2l "ifdef"; s2l "ifndef"; s2l "ifeq"; s2l "ifneq"; s2l "else"; s2l "endif"]
    end.
  (** No define inside a define. *)
  Definition body_line (l : rline) : Prop :=
    match l with
    | RRecipe _ | RAssign _ => True
    | RDefine _ => False
    | ROther t => exists w a, word_then t w a /\ w <> s2l "endef"
    end.
  Fixpoint wf (p : prog) : Prop :=
    match p with
    | PNil => True
    | PAct l p => plain_line l /\ wf p
    | PDefine t body e p => Forall body_line body /\ word_then e (s2l "endef") [] /\ wf p
    | PIf t k args p e rest => word_then t (kind_word k) args /\ wf p /\ wf_tail e /\ wf rest
    end
  with wf_tail (e : tail) : Prop :=
    match e with
    | TEnd t => exists a, word_then t (s2l "endif") a
    | TElse t p e => word_then t (s2l "else") [] /\ wf p /\ exists a, word_then e (s2l "endif") a
    | TElif t k args p e => (exists u, word_then t (s2l "else") u /\ word_then u (kind_word k) args) /\ wf p /\ wf_tail e
    end.

  (** What they mean: one branch of each conditional is read, no condition after it is looked at. *)
  Inductive exec : prog -> state -> state -> Prop :=
  | x_nil : forall sg, exec PNil sg sg
  | x_act : forall l p sg sg', exec p (act sg l) sg' -> exec (PAct l p) sg sg'
  | x_define : forall t body e p sg sg', exec p (define sg t body) sg' -> exec (PDefine t body e p) sg sg'
  | x_true : forall t k args p e rest sg sg1 sg2, condition sg k args true ->
      exec p sg sg1 -> exec rest sg1 sg2 -> exec (PIf t k args p e rest) sg sg2
  | x_false : forall t k args p e rest sg sg1 sg2, condition sg k args false ->
      exec_tail e sg sg1 -> exec rest sg1 sg2 -> exec (PIf t k args p e rest) sg sg2
  with exec_tail : tail -> state -> state -> Prop :=
  | xt_end : forall t sg, exec_tail (TEnd t) sg sg
  | xt_else : forall t p e sg sg', exec p sg sg' -> exec_tail (TElse t p e) sg sg'
  | xt_true : forall t k args p e sg sg', condition sg k args true -> exec p sg sg' -> exec_tail (TElif t k args p e) sg sg'
  | xt_false : forall t k args p e sg sg', condition sg k args false -> exec_tail e sg sg' -> exec_tail (TElif t k args p e) sg sg'.
End Sem.
