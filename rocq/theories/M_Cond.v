(** Conditional directives: src/read.c. *)
From Verif Require Import Base M_Text.
Open Scope string_scope.
Open Scope list_scope.
Open Scope nat_scope.

(** A line as the loop of eval (src/read.c:660-829) sees it, after readline and the tests in front
    of the conditional: a recipe line of an open rule (702-729), a variable assignment or undefine
    (751-784), a define line, or anything else: [t] is the text from its first character that is
    not white space, continuations and comments removed.  Which of these a line is does not
    depend on the conditionals.  Empty lines are left out. *)
Inductive rline :=
| RRecipe (t : str)
| RAssign (t : str)
| RDefine (t : str)
| ROther (t : str).

Inductive ckind := k_ifdef | k_ifndef | k_ifeq | k_ifneq.

(** src/read.c:83-91 struct conditionals: one level.  [None]: memory not yet written. *)
Record level := mklevel { l_ignoring : option nat; l_seen_else : bool }.

Inductive cres (A : Type) :=
| CNot                                 (* -2: no conditional directive *)
| CBad (a : A)                         (* -1: invalid syntax *)
| CRet (a : A) (ignoring : bool)       (* 0 or 1 *)
| CFatal
| CUB.                                 (* reads memory that was not written *)
Arguments CNot {A}. Arguments CBad {A}. Arguments CRet {A}. Arguments CFatal {A}. Arguments CUB {A}.

(** src/read.c:1724-1734, 1855-1861: is any level ignoring?  The levels are kept with the
    innermost first; the C loop starts at the other end. *)
Fixpoint ignoring_from (l : list level) : option bool :=
  match l with
  | [] => Some false
  | x :: l' => match l_ignoring x with
               | None => None
               | Some 0 => ignoring_from l'
               | Some _ => Some true
               end
  end.
Definition any_ignoring (st : list level) : option bool := ignoring_from (rev st).

(** src/read.c:1774-1784: end of the first string of (a,b). *)
Fixpoint find_comma (count : Z) (s : str) : option (str * str) :=
  match s with
  | [] => None
  | c :: s' =>
      let next n := match find_comma n s' with Some (a, r) => Some (c :: a, r) | None => None end in
      if c =?c c_lparen then next (count + 1)%Z
      else if c =?c c_rparen then next (count - 1)%Z
      else if (c =?c c_comma) && (count <=? 0)%Z then Some ([], s')
      else next count
  end.
(** src/read.c:1817-1833. *)
Fixpoint find_rparen (count : Z) (s : str) : option (str * str) :=
  match s with
  | [] => None
  | c :: s' =>
      let next n := match find_rparen n s' with Some (a, r) => Some (c :: a, r) | None => None end in
      if c =?c c_lparen then next (count + 1)%Z
      else if c =?c c_rparen then if (count <=? 0)%Z then Some ([], s') else next (count - 1)%Z
      else next count
  end.
Fixpoint find_char (q : ascii) (s : str) : option (str * str) :=
  match s with
  | [] => None
  | c :: s' => if c =?c q then Some ([], s')
               else match find_char q s' with Some (a, r) => Some (c :: a, r) | None => None end
  end.
Fixpoint lstrip (s : str) : str :=
  match s with c :: s' => if isblank c then lstrip s' else s | [] => [] end.
Definition rstrip (s : str) : str := rev (lstrip (rev s)).

Section Machine.
  Variable state : Type.                        (* everything else make knows *)
  Variable expand : state -> str -> str.        (* variable_expand; its side effects are left out *)
  Variable nonempty : state -> str -> bool.     (* the variable is defined, with a value *)

  (** src/read.c:1736-1853: the condition; the value of ignoring[o], or a syntax error. *)
  Definition cond_test (sg : state) (k : ckind) (line : str) : option bool :=
    match k with
    | k_ifdef | k_ifndef =>
        let var := expand sg line in
        let (n, p) := end_of_token var in
        match next_token p with
        | [] => Some (Bool.eqb (nonempty sg n) (match k with k_ifndef => true | _ => false end))
        | _ => None
        end
    | _ =>
        match line with
        | [] => None
        | t :: line =>
            let cmp s1 s2 :=
              Some (Bool.eqb (str_eqb (expand sg s1) (expand sg s2)) (match k with k_ifneq => true | _ => false end)) in
            let second s1 (t : ascii) (line : str) :=       (* [line] starts at the delimiter or, for ')', the text *)
              if t =?c c_rparen
              then match find_rparen 0 (next_token line) with Some (s2, _) => cmp s1 s2 | None => None end
              else match find_char t line with Some (s2, _) => cmp s1 s2 | None => None end in
            if t =?c c_lparen
            then match find_comma 0 line with
                 | None => None
                 | Some (s1, r) => second (rstrip s1) c_rparen r
                 end
            else if (t =?c c_comma)                  (* termin is the comma itself *)
            then match find_comma 0 line with
                 | None => None
                 | Some (s1, r) => second (rstrip s1) c_rparen r
                 end
            else if (t =?c c_dq) || (t =?c c_sq)
            then match find_char t line with
                 | None => None
                 | Some (s1, r) =>
                     match next_token r with
                     | [] => None
                     | t2 :: r2 =>
                         if t2 =?c c_rparen then second s1 c_rparen (t2 :: r2)
                         else if (t2 =?c c_dq) || (t2 =?c c_sq) then second s1 t2 r2
                         else None
                     end
                 end
            else None
        end
    end.

  Definition done (st : list level) : cres (list level) :=
    match any_ignoring st with None => CUB | Some b => CRet st b end.

  (** src/read.c:1702-1861 for the four if directives. *)
  Definition push_if (sg : state) (k : ckind) (line : str) (st : list level) : cres (list level) :=
    match any_ignoring st with
    | None => CUB
    | Some true => CRet (mklevel (Some 1) false :: st) true
    | Some false =>
        match cond_test sg k line with
        | None => CBad (mklevel None false :: st)
        | Some ig => done (mklevel (Some (if ig then 1 else 0)) false :: st)
        end
    end.

  Definition if_word (w : str) : option ckind :=
    if str_eqb w (s2l "ifdef") then Some k_ifdef
    else if str_eqb w (s2l "ifndef") then Some k_ifndef
    else if str_eqb w (s2l "ifeq") then Some k_ifeq
    else if str_eqb w (s2l "ifneq") then Some k_ifneq
    else None.

  (** src/read.c:1603-1862 conditional_line; [w] is the first word of the line and [line] what
      follows it from the next token on. *)
  Definition conditional_line (sg : state) (w line : str) (st : list level) : cres (list level) :=
    match if_word w with
    | Some k => push_if sg k line st
    | None =>
        if str_eqb w (s2l "else") then
          match st with
          | [] => CFatal
          | x :: st' =>
              if l_seen_else x then CFatal
              else
                match l_ignoring x with
                | None => CUB
                | Some i =>
                    let i := match i with 0 => 2 | 1 => 0 | _ => i end in
                    match line with
                    | [] => done (mklevel (Some i) true :: st')
                    | c :: r =>
                        let st1 := mklevel (Some i) false :: st' in
                        let (w1, r1) := end_of_token r in
                        match if_word (c :: w1) with
                        | None => done st1                     (* only a message *)
                        | Some k =>
                            match push_if sg k (next_token r1) st1 with
                            | CRet (y :: _) _ =>
                                if i <? 2
                                then match l_ignoring y with
                                     | None => CUB
                                     | Some j => done (mklevel (Some j) false :: st')
                                     end
                                else done st1
                            | CBad st2 => done st2             (* only a message *)
                            | CRet [] _ => CUB
                            | CUB => CUB
                            | CFatal => CFatal
                            | CNot => done st1
                            end
                        end
                    end
                end
          end
        else if str_eqb w (s2l "endif") then
          match st with
          | [] => CFatal
          | _ :: st' => done st'
          end
        else CNot
    end.

  Variable act : state -> rline -> state.                  (* what make does with a line it reads *)
  Variable define : state -> str -> list rline -> state.   (* do_variable_definition of a define *)

  Record loop := mkloop {
    p_state : state;
    p_levels : list level;
    p_ignoring : bool;
    p_ignored_define : bool;
    p_define : option (str * nat * list rline) }.          (* inside do_define: name, nlevels, lines so far reversed *)

  Inductive lres := LOk (l : loop) | LFatal | LUB.

  (** src/read.c:810 and 1381-1390: endef, alone or with a comment (which is already gone). *)
  Definition is_endef (t : str) : bool :=
    let (w, r) := end_of_token t in str_eqb w (s2l "endef") && match next_token r with [] => true | _ => false end.

  (** src/read.c:660-829, one line; 1364-1402 for the lines of a define.  In the latter a line
      counts as define or endef by its first word; the words "override define" inside are not
      told apart. *)
  Definition read_line (l : loop) (x : rline) : lres :=
    match p_define l with
    | Some (n, lev, body) =>
        let more k := LOk (mkloop (p_state l) (p_levels l) (p_ignoring l) (p_ignored_define l) (Some (n, k, x :: body))) in
        match x with
        | RDefine _ => more (S lev)
        | ROther t =>
            if str_eqb (fst (end_of_token t)) (s2l "endef")
            then match lev with
                 | S (S k) => more (S k)
                 | _ => LOk (mkloop (define (p_state l) n (rev body)) (p_levels l) (p_ignoring l) (p_ignored_define l) None)
                 end
            else more lev
        | _ => more lev
        end
    | None =>
        match x with
        | RRecipe _ | RAssign _ =>
            if p_ignoring l then LOk l
            else LOk (mkloop (act (p_state l) x) (p_levels l) (p_ignoring l) (p_ignored_define l) None)
        | RDefine t =>
            if p_ignoring l then LOk (mkloop (p_state l) (p_levels l) (p_ignoring l) true None)
            else LOk (mkloop (p_state l) (p_levels l) (p_ignoring l) (p_ignored_define l) (Some (t, 1, [])))
        | ROther t =>
            if p_ignored_define l
            then LOk (mkloop (p_state l) (p_levels l) (p_ignoring l) (negb (is_endef t)) None)
            else
              let (w, r) := end_of_token t in
              match conditional_line (p_state l) w (next_token r) (p_levels l) with
              | CNot => if p_ignoring l then LOk l
                        else LOk (mkloop (act (p_state l) x) (p_levels l) (p_ignoring l) (p_ignored_define l) None)
              | CBad _ => LFatal
              | CRet st ig => LOk (mkloop (p_state l) st ig (p_ignored_define l) None)
              | CFatal => LFatal
              | CUB => LUB
              end
        end
    end.
  Fixpoint read_lines (l : loop) (xs : list rline) : lres :=
    match xs with
    | [] => LOk l
    | x :: xs' => match read_line l x with LOk l' => read_lines l' xs' | e => e end
    end.
End Machine.
