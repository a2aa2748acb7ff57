(** How a POSIX shell reads a line of plain words (POSIX.1-2017, XCU 2.2 and 2.3): backslash-newlines
    are removed, the line is cut into words at blanks outside quotes, and the quotes are removed. *)
From Verif Require Import Base.
Open Scope string_scope.
Open Scope list_scope.
Open Scope nat_scope.

Inductive quote := Unq | Sq | Dq.
(** 2.2.1, 2.2.3: a backslash-newline is removed, but not in single quotes. *)
Fixpoint join (q : quote) (s : str) : str :=
  match s with
  | [] => []
  | c :: s' =>
      match q with
      | Unq =>
          if c =?c c_bslash then
            match s' with
            | d :: s'' => if d =?c c_nl then join Unq s'' else c :: d :: join Unq s''
            | [] => [c]
            end
          else c :: join (if c =?c c_sq then Sq else if c =?c c_dq then Dq else Unq) s'
      | Sq => c :: join (if c =?c c_sq then Unq else Sq) s'
      | Dq =>
          if c =?c c_bslash then
            match s' with
            | d :: s'' => if d =?c c_nl then join Dq s'' else c :: d :: join Dq s''
            | [] => [c]
            end
          else c :: join (if c =?c c_dq then Unq else Dq) s'
      end
  end.

(** 2.2, 2.4, 2.13: what means more than itself outside quotes, and in double quotes. *)
Definition active (c : ascii) : bool := existsb (fun d => c =?c d) (s2l "|&;<>()$`*?[#~{}!").
Definition active_dq (c : ascii) : bool := (c =?c c_dollar) || (c =?c "`"%char).
Definition add (cur : option str) (t : str) : option str := Some (match cur with Some w => w ++ t | None => t end).
Definition ends (cur : option str) : list str := match cur with Some w => [w] | None => [] end.
(** The words as written, up to a newline; [None] if the line is not made of plain words: an active
    character, or a quote that is not closed. *)
Fixpoint cut (q : quote) (cur : option str) (s : str) : option (list str) :=
  match s with
  | [] => match q with Unq => Some (ends cur) | _ => None end
  | c :: s' =>
      match q with
      | Unq =>
          if c =?c c_nl then Some (ends cur)
          else if isblank c then option_map (app (ends cur)) (cut Unq None s')
          else if active c then None
          else if c =?c c_bslash then
            match s' with
            | d :: s'' => cut Unq (add cur [c; d]) s''
            | [] => Some (ends (add cur [c]))
            end
          else cut (if c =?c c_sq then Sq else if c =?c c_dq then Dq else Unq) (add cur [c]) s'
      | Sq => cut (if c =?c c_sq then Unq else Sq) (add cur [c]) s'
      | Dq =>
          if active_dq c then None
          else if c =?c c_bslash then
            match s' with
            | d :: s'' => cut Dq (add cur [c; d]) s''
            | [] => None
            end
          else cut (if c =?c c_dq then Unq else Dq) (add cur [c]) s'
      end
  end.
(** 2.6.7 quote removal. *)
Fixpoint unquote (q : quote) (s : str) : str :=
  match s with
  | [] => []
  | c :: s' =>
      match q with
      | Unq =>
          if c =?c c_bslash then match s' with d :: s'' => d :: unquote Unq s'' | [] => [c] end
          else if c =?c c_sq then unquote Sq s'
          else if c =?c c_dq then unquote Dq s'
          else c :: unquote Unq s'
      | Sq => if c =?c c_sq then unquote Unq s' else c :: unquote Sq s'
      | Dq =>
          if c =?c c_dq then unquote Unq s'
          else if c =?c c_bslash then
            match s' with
            | d :: s'' => if active_dq d || (d =?c c_dq) || (d =?c c_bslash) then d :: unquote Dq s'' else c :: d :: unquote Dq s''
            | [] => [c]
            end
          else c :: unquote Dq s'
      end
  end.
Definition written (line : str) : option (list str) := cut Unq None (join Unq line).
Definition shell_words (line : str) : option (list str) := option_map (map (unquote Unq)) (written line).

(** A word that sets a variable (2.9.1) has an equal sign before which nothing is quoted. *)
Definition assignment (w : str) : Prop := exists a b, w = a ++ c_eq :: b /\ forall c, In c a -> c <> c_bslash /\ c <> c_sq /\ c <> c_dq.
(** 2.14 special built-in utilities; and 2.4 reserved words that begin a command and need no active
    character. *)
Definition special_utilities : list str :=
  map s2l ["break"; ":"; "continue"; "."; "eval"; "exec"; "exit"; "export"; "readonly"; "return"; "set"; "shift"; "times"; "trap"; "unset"; "case"; "for"; "if"; "while"].

(** Where one stands after a text: outside quotes, after a backslash, in single quotes, in double
    quotes, after a backslash in these. *)
Inductive place := Out | Esc | InS | InD | EscD.
Definition next (p : place) (c : ascii) : place :=
  match p with
  | Out => if c =?c c_bslash then Esc else if c =?c c_sq then InS else if c =?c c_dq then InD else Out
  | Esc => Out
  | InS => if c =?c c_sq then Out else InS
  | InD => if c =?c c_dq then Out else if c =?c c_bslash then EscD else InD
  | EscD => InD
  end.
Definition place_after (s : str) : place := fold_left next s Out.
(** An empty word, then a backslash-newline and a blank. *)
Definition empty_then_joined (line : str) : Prop := exists pre w b post,
  line = pre ++ w ++ c_bslash :: c_nl :: b :: post /\ isblank b = true /\
  (pre = [] \/ exists pre' b', pre = pre' ++ [b'] /\ isblank b' = true /\ place_after pre' = Out) /\ shell_words w = Some [[]].

(** The words of a text, between blanks. *)
Fixpoint blank_words (s : str) (cur : option str) : list str :=
  match s with
  | [] => ends cur
  | c :: s' => if isblank c then ends cur ++ blank_words s' None else blank_words s' (add cur [c])
  end.
(** What is passed of a line: all up to a newline that has no backslash before it. *)
Definition upto_newline (line a : str) : Prop :=
  (forall x y, a = x ++ c_nl :: y -> exists x', x = x' ++ [c_bslash]) /\
  (line = a \/ exists r, line = a ++ c_nl :: r /\ ~ exists a', a = a' ++ [c_bslash]).

(** Characters without a meaning to the shell or to make's own reading of a line. *)
Definition flag_text (s : str) : Prop := forall c, In c s -> ~ In c (s2l "#;*?[]&|<>(){}$`^~!'\" ++ [c_dq; c_nl]).
(** The name of a shell: no quote, backslash or newline, and a first word that sets no variable. *)
Definition shell_text (s : str) : Prop := (forall c, In c s -> c <> c_bslash /\ c <> c_sq /\ c <> c_nl) /\
  match blank_words s None with w :: _ => ~ In c_eq w | [] => False end.

(** A recipe of one shell (.ONESHELL): its lines end at a newline with an even number of backslashes
    before it; of each the prefix characters are dropped. *)
Definition odd_after (s : str) : bool := fold_left (fun e c => if c =?c c_bslash then negb e else false) s false.
Definition recipe_line (body : str) : Prop := forall x y, body = x ++ c_nl :: y -> odd_after x = true.
Fixpoint drop_prefix (s : str) : str :=
  match s with c :: q => if isblank c || existsb (fun d => c =?c d) (s2l "-@+") then drop_prefix q else s | [] => [] end.
Definition shell_name (path nm : str) : Prop :=
  ~ In c_slash nm /\ ~ In c_bslash nm /\ exists d, path = d ++ nm /\ (d = [] \/ exists d' c, d = d' ++ [c] /\ (c = c_slash \/ c = c_bslash)).
Definition bourne_family : list str := map s2l ["sh"; "bash"; "ksh"; "rksh"; "zsh"; "ash"; "dash"].
(** The words of a text, between white space. *)
Fixpoint space_words (s : str) (cur : option str) : list str :=
  match s with
  | [] => ends cur
  | c :: s' => if isspace c then ends cur ++ space_words s' None else space_words s' (add cur [c])
  end.
