(** define ... endef: src/read.c do_define. *)
From Verif Require Import Base M_Quote M_Text.
From Verif Require M_Def M_Var M_Expand M_Desc.
Open Scope string_scope.
Open Scope list_scope.
Open Scope nat_scope.

(** src/read.c:1540-1541, 1546-1547: [p] begins with the word, and what follows is the end or a blank.  That [len] is compared first keeps p[6] inside the string. *)
Fixpoint after (w p : str) : option str := match w, p with [], _ => Some p | a :: w', b :: p' => if a =?c b then after w' p' else None | _, [] => None end.
Definition word (w p : str) : option str :=
  match after w p with
  | Some [] => Some []
  | Some (c :: r) => if isblank c then Some (c :: r) else None
  | None => None
  end.
Inductive kind := Opens | Closes (r : str) | Plain.
(** src/read.c:1533-1552. *)
Definition kind_of (prefix : ascii) (line : str) : kind :=
  match line with
  | c :: _ =>
      if c =?c prefix then Plain
      else let p := next_token line in
           match word (s2l "define") p with
           | Some _ => Opens
           | None => match word (s2l "endef") p with Some r => Closes r | None => Plain end
           end
  | [] => Plain
  end.
(** src/read.c:1437-1456 remove_comments without a description: what is left of the text. *)
Definition uncomment (p : str) : option str := option_map f_before (find_map_unquote M_Desc.is_hash true p).

(** The buffer: its text, the variable [length], the size that was allocated.  src/read.c:1490-1491, 1563-1574. *)
Record buffer := mkbuffer { b_text : str; b_length : nat; b_size : nat }.
Definition empty : buffer := mkbuffer [] 100 100.
(** [None]: written behind its end. *)
Definition add_line (b : buffer) (line : str) : option buffer :=
  let idx := length (b_text b) in
  let len := length line in
  let grow := b_length b <? idx + len + 1 in
  let ln := if grow then (idx + len) * 2 else b_length b in
  let size := if grow then ln + 1 else b_size b in
  if idx + len + 1 <=? size then Some (mkbuffer (b_text b ++ line ++ [c_nl]) ln size) else None.

(** [Value text rest warnings]: the text of the definition, the lines that remain to be read, how often "extraneous text after 'endef' directive" was said. *)
Inductive outcome := Value (text : str) (rest : list str) (warnings : nat) | Missing | Overflow | NoFuel.
(** src/read.c:1518-1575.  [lines]: what readline gives (C52). *)
Fixpoint body (posix : bool) (prefix : ascii) (levels : nat) (b : buffer) (warnings : nat) (lines : list str) : outcome :=
  match lines with
  | [] => Missing
  | l :: lines' =>
      let line := collapse_continuations posix l in
      let add line levels w := match add_line b line with Some b => body posix prefix levels b w lines' | None => Overflow end in
      match kind_of prefix line with
      | Plain => add line levels warnings
      | Opens => add line (S levels) warnings
      | Closes r =>
          match uncomment r with
          | None => NoFuel
          | Some q =>
              let w := match next_token q with [] => warnings | _ => S warnings end in
              (* src/read.c:1577-1581 *)
              match levels - 1 with
              | 0 => Value (removelast (b_text b)) lines' w
              | n => add (firstn (length line - length r) line ++ q) n w
              end
          end
      end
  end.
(** src/read.c:1498-1516: the name and the operator.  [expand]: allocated_variable_expand.  [None]: "empty variable name".  The flag: "extraneous text after 'define' directive". *)
Fixpoint skip_back (r : str) : str := match r with c :: r' => if isblank c && (match r' with [] => false | _ => true end) then skip_back r' else r | [] => [] end.
Definition head (expand : str -> str) (text : str) : option (str * M_Var.flavor * bool) :=
  let '(t, f, extra) := match M_Def.parse_variable_definition text with
                        | None => (text, M_Var.f_recursive, false)
                        | Some (n, f, v) => (n, f, match v with [] => false | _ => true end)
                        end in
  match next_token (expand t) with
  | [] => None
  | n => Some (rev (skip_back (rev n)), f, extra)
  end.
(** src/read.c:1484-1588 up to do_variable_definition (C48). *)
Definition do_define (expand : str -> str) (posix : bool) (prefix : ascii) (text : str) (lines : list str) : option (str * M_Var.flavor * bool * outcome) :=
  match head expand text with
  | None => None
  | Some (n, f, extra) => Some (n, f, extra, body posix prefix 1 empty 0 lines)
  end.
