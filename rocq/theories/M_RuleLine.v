(** Reading the line of a rule: src/read.c eval, from "This line describes some target files". *)
From Verif Require Import Base M_Text M_Quote M_Var M_Def M_Implicit M_Seq.
Open Scope string_scope.
Open Scope list_scope.
Open Scope nat_scope.

Definition c_amp : ascii := ascii_of_nat 38.

(** src/read.c:2828-2920: the loop of get_next_mword over a word that is no operator.  The word, and the text
    from the character at which it ends.  Fuel: each round reads a character. *)
Fixpoint mword_loop (fuel : nat) (s : str) : str * str :=
  match fuel, s with
  | 0, _ | _, [] => ([], s)
  | S fuel', c :: s' =>
      let one := let (w, r) := mword_loop fuel' s' in (c :: w, r) in
      if (c =?c c_sp) || (c =?c c_tab) || (c =?c c_eq) || (c =?c c_colon) then ([], s)
      else if c =?c c_dollar then
        match s' with
        | [] => ([c], [])
        | d :: s'' =>
            if (d =?c c_lparen) || (d =?c c_lbrace) then
              let '(a, b) := M_Def.skip_ref d (if d =?c c_lparen then c_rparen else c_rbrace) 1 s'' in
              let (w, r) := mword_loop fuel' b in (c :: d :: a ++ w, r)
            else let (w, r) := mword_loop fuel' s'' in (c :: d :: w, r)
        end
      else if (c =?c c_quest) || (c =?c c_plus) then
        match s' with
        | d :: _ => if d =?c c_eq then ([], s) else one
        | [] => one
        end
      else if c =?c c_bslash then
        match s' with
        | d :: s'' =>
            if (d =?c c_colon) || (d =?c c_semi) || (d =?c c_eq) || (d =?c c_bslash)
            then let (w, r) := mword_loop fuel' s'' in (c :: d :: w, r)
            else one
        | [] => one
        end
      else if c =?c c_amp then
        match s' with
        | d :: _ => if d =?c c_colon then ([], s) else one
        | [] => one
        end
      else one
  end.

Inductive wtype := w_eol | w_word | w_op | w_rule.      (** w_rule: one of the four colons *)
Fixpoint skip_blank (s : str) : str := match s with c :: s' => if isblank c then skip_blank s' else s | [] => [] end.
(** src/read.c:2757-2931 get_next_mword: type, word, and the text behind it.  The kinds of operators and of words
    are not told apart where the caller does not. *)
Definition get_next_mword (buffer : str) : wtype * str * str :=
  match skip_blank buffer with
  | [] => (w_eol, [], [])
  | c :: p =>
      let word := let (w, r) := mword_loop (S (S (length p))) (c :: p) in (w_word, w, r) in
      if (c =?c c_semi) || (c =?c c_eq) then (w_op, [c], p)
      else if c =?c c_colon then
        match p with
        | d :: p' =>
            if d =?c c_eq then (w_op, [c; d], p')
            else if d =?c c_colon then
              match p' with
              | e :: f :: p'' => if f =?c c_eq then (w_op, [c; d; e], f :: p'') else (w_rule, [c; d], p')   (* p[1] *)
              | _ => (w_rule, [c; d], p')
              end
            else (w_rule, [c], p)
        | [] => (w_rule, [c], p)
        end
      else if c =?c c_amp then
        match p with
        | d :: p' =>
            if d =?c c_colon then
              match p' with
              | e :: p'' => if e =?c c_colon then (w_rule, [c; d; e], p'') else (w_rule, [c; d], p')
              | [] => (w_rule, [c; d], p')
              end
            else word
        | [] => word
        end
      else if (c =?c c_plus) || (c =?c c_quest) || (c =?c c_bang) then
        match p with
        | d :: p' => if d =?c c_eq then (w_op, [c; d], p') else word
        | [] => word
        end
      else word
  end.

(** src/read.c:502-558 parse_var_assignment: [None]: no assignment; otherwise the text behind the modifiers and
    whether one of them is "override". *)
Fixpoint assignment_loop (fuel : nat) (over : bool) (p : str) : option (str * bool) :=
  match fuel with
  | 0 => None
  | S fuel' =>
      match parse_variable_definition p with
      | Some _ => Some (p, over)
      | None =>
          let (w, r) := end_of_token p in
          let next over := match next_token r with [] => None | p' => assignment_loop fuel' over p' end in
          if str_eqb w "export" then next over
          else if str_eqb w "override" then next true
          else if str_eqb w "private" then next over
          else if str_eqb w "define" || str_eqb w "undefine" then Some (next_token r, over)
          else None
      end
  end.
Definition parse_var_assignment (line : str) : option (str * bool) :=
  match next_token line with
  | [] => None
  | p => assignment_loop (S (length p)) false p
  end.

(** src/read.c:1262-1276: the colon of a static pattern rule; nothing is unquoted. *)
Fixpoint raw_colon (n : nat) (s : str) : bool :=
  match s with
  | [] => false
  | c :: s' => if c =?c c_bslash then raw_colon (S n) s'
               else if (c =?c c_colon) && Nat.even n then true else raw_colon 0 s'
  end.
Definition opt (s : str) : option str := match s with [] => None | _ => Some s end.

Record rule := mkrule { r_targets : list str; r_group : bool; r_double : bool; r_pattern : option str; r_deps : option str; r_recipe : option str }.
(** [Past_end]: the code reads past the end of its text.  [Glob]: parse_file_seq stops make or writes past its
    buffer (C58). *)
Inductive result :=
| Nothing                                   (** the line is blank *)
| No_targets                                (** a rule without targets; its recipe is ignored *)
| Rule (r : rule)
| Assign (targets : list str) (text : str) (over : bool)
| No_rule                                   (** missing rule before recipe *)
| No_separator                              (** missing separator *)
| No_pattern | Many_patterns | No_percent   (** of a static pattern rule *)
| Past_end | Glob | No_fuel.

Section Line.
  (** variable_expand_string; the file system for names; whether .POSIX is a target. *)
  Variable expand : str -> str.
  Variable tilde : str -> option str.
  Variable glob : str -> gres.
  Variable members : str -> str -> list str.
  Variable posix : bool.

  (** src/read.c:1085-1164: word by word until one has a colon.  [pre]: the buffer before P2; [cmd]: CMDLEFT;
      [rest]: LB_NEXT.  The text before the colon, whether it is "&:", the text behind the colon, CMDLEFT and
      LB_NEXT; [None]: no colon, with the buffer. *)
  Fixpoint words (fuel : nat) (pre p2 : str) (cmd : option str) (rest : str)
    : option (str + str * bool * str * option str * str) :=
    match fuel with
    | 0 => None
    | S fuel' =>
        let '(p2, cmd, rest) :=
          match cmd with
          | Some _ => (p2, cmd, rest)
          | None =>
              let f := find_char_unquote p2 c_semi in
              match f_rest f with
              | Some (_ :: r) => (f_before f, Some (r ++ expand rest), [])
              | _ => (f_before f, None, rest)
              end
          end in
        let f := find_char_unquote p2 c_colon in
        match f_rest f with
        | Some (_ :: r) =>
            match rev (f_before f) with
            | c :: b => if c =?c c_amp then Some (inr (pre ++ rev b, true, r, cmd, rest)) else Some (inr (pre ++ f_before f, false, r, cmd, rest))
            | [] => Some (inr (pre ++ f_before f, false, r, cmd, rest))
            end
        | _ =>
            match get_next_mword rest with
            | (w_eol, _, _) => Some (inl (pre ++ f_before f))
            | (_, w, rest') => words fuel' (pre ++ f_before f ++ [c_sp]) (expand w) cmd rest'
            end
        end
    end.

  (** src/read.c:1240-1345: an ordinary rule.  [p2]: the text behind the colons; [rest]: LB_NEXT.  At 1204-1210 the
      rest is copied behind P2 and PLEN is the length of P2 before; then parse_var_assignment moves P2 past blanks,
      and at 1255 the expansion is put at P2 + PLEN.  If that is behind the terminating NUL it is not seen. *)
  Definition ordinary_rule (ts : list str) (group double : bool) (p2 rest : str) (cmd : option str) : result :=
    let plen := match rest with [] => 0 | _ => length p2 end in
    let p2 := next_token (p2 ++ rest) in
    let f := find_char_unquote rest c_eq in
    let rest := f_before f ++ match f_rest f with Some r => r | None => [] end in
    let '(p2, cmd) :=
      match rest with
      | [] => (p2, cmd)
      | _ =>
          let p2 := if plen <=? length p2 then firstn plen p2 ++ expand rest else p2 in
          match cmd with
          | Some _ => (p2, cmd)
          | None => let f := find_char_unquote p2 c_semi in
                    match f_rest f with Some (_ :: r) => (f_before f, Some r) | _ => (f_before f, None) end
          end
      end in
    if raw_colon 0 p2 then
      match parse_file_seq (fun c => c =?c c_colon) false false false true false false None tilde glob members p2 with
      | Names _ [] => Past_end
      | Names [] _ => No_pattern
      | Names [n] (_ :: p2) =>
          match find_percent_cached n with
          | Some f => match f_rest f with
                      | Some r => Rule (mkrule ts group double (Some (f_before f ++ r)) (opt (strip_whitespace p2)) cmd)
                      | None => No_percent
                      end
          | None => Past_end
          end
      | Names (_ :: _ :: _) _ => Many_patterns
      | _ => Glob
      end
    else Rule (mkrule ts group double None (opt (strip_whitespace p2)) cmd).

  (** src/read.c:1041-1238. *)
  Definition read_rule (line : str) : result :=
    match find_map_unquote (fun c => (c =?c c_semi) || (c =?c c_hash)) true line with
    | None => No_fuel
    | Some f =>
        let semi := match f_rest f with Some (c :: r) => if c =?c c_hash then None else Some r | _ => None end in
        match get_next_mword (collapse_continuations posix (f_before f)) with
        | (w_eol, _, _) => match semi with Some _ => No_rule | None => Nothing end
        | (w_rule, _, _) => No_targets
        | (_, w, rest) =>
            match words (S (S (length rest))) [] (expand w) semi rest with
            | None => No_fuel
            | Some (inl buf) => match next_token buf with [] => Nothing | _ => No_separator end
            | Some (inr (buf, group, p2, cmd, rest)) =>
                match parse_file_seq no_stop false false false false false false None tilde glob members buf with
                | Names [] _ => No_targets
                | Names ts _ =>
                    let '(double, p2) := match p2 with c :: p2' => if c =?c c_colon then (true, p2') else (false, p2) | [] => (false, p2) end in
                    match parse_var_assignment (p2 ++ rest) with
                    | Some (text, over) => Assign ts (text ++ match semi with Some s => collapse_continuations posix (c_semi :: s) | None => [] end) over
                    | None => ordinary_rule ts group double p2 rest cmd
                    end
                | _ => Glob
                end
            end
        end
    end.
End Line.
