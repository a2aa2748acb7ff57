(** C22 and C23 as tests: what the specification says of one line, decided by trying every division. *)
From Verif Require Import Base S_Cmd M_Cmd.
Open Scope string_scope.
Open Scope list_scope.
Open Scope nat_scope.

Fixpoint strs_eqb (a b : list str) : bool := match a, b with [], [] => true | x :: a', y :: b' => if str_eqb x y then strs_eqb a' b' else false | _, _ => false end.
Definition ostr_eqb (a b : option str) : bool := match a, b with Some x, Some y => str_eqb x y | None, None => true | _, _ => false end.
Definition place_eqb (a b : place) : bool := match a, b with Out, Out | Esc, Esc | InS, InS | InD, InD | EscD, EscD => true | _, _ => false end.
Definition holds_char (c : ascii) (s : str) : bool := existsb (fun d => c =?c d) s.
Definition holds_word (w : str) (l : list str) : bool := existsb (str_eqb w) l.
(** Every way to divide a text in two. *)
Fixpoint divisions (s : str) : list (str * str) := ([], s) :: match s with [] => [] | c :: s' => map (fun x => (c :: fst x, snd x)) (divisions s') end.
Definition ends_in (P : ascii -> bool) (s : str) : bool := match s with [] => false | _ => P (last s c_nul) end.
Definition is_bslash (c : ascii) : bool := c =?c c_bslash.

Definition b_empty_then_joined (line : str) : bool :=
  existsb (fun x => match snd x with
    | c :: d :: b :: _ =>
        if (c =?c c_bslash) && (d =?c c_nl) && isblank b then
          existsb (fun y => (match fst y with [] => true | _ => ends_in isblank (fst y) && place_eqb (place_after (removelast (fst y))) Out end)
                            && match shell_words (snd y) with Some [[]] => true | _ => false end) (divisions (fst x))
        else false
    | _ => false end) (divisions line).
Definition b_assignment (w : str) : bool := existsb (fun x => match snd x with c :: _ => (c =?c c_eq) && forallb (fun d => negb ((d =?c c_bslash) || (d =?c c_sq) || (d =?c c_dq))) (fst x) | [] => false end) (divisions w).
(** The rest from the first newline outside of quotes. *)
Definition after_newline (line : str) : option str :=
  match filter (fun x => match snd x with c :: _ => (c =?c c_nl) && place_eqb (place_after (fst x)) Out | [] => false end) (divisions line) with x :: _ => Some (snd x) | [] => None end.
Definition b_upto_newline (line a : str) : bool :=
  forallb (fun x => match snd x with c :: _ => negb (c =?c c_nl) || ends_in is_bslash (fst x) | [] => true end) (divisions a)
  && (str_eqb line a || (existsb (fun x => str_eqb (fst x) a && match snd x with c :: _ => c =?c c_nl | [] => false end) (divisions line) && negb (ends_in is_bslash a))).
Definition b_flag_text (s : str) : bool := forallb (fun c => negb (holds_char c (s2l "#;*?[]&|<>(){}$`^~!'\" ++ [c_dq; c_nl]))) s.
Definition b_shell_text (s : str) : bool :=
  forallb (fun c => negb ((c =?c c_bslash) || (c =?c c_sq) || (c =?c c_nl))) s && match blank_words s None with w :: _ => negb (holds_char c_eq w) | [] => false end.
Definition all_joined (line : str) : bool := forallb (fun x => match snd x with c :: _ => negb (c =?c c_nl) || ends_in is_bslash (fst x) | [] => true end) (divisions line).
Definition the_rest (r : option str) : str := match r with Some r => r | None => [] end.
(** The built-ins and reserved words by which no shell is to be called. *)
Definition callable (sh : str) : bool := b_shell_text sh && match blank_words sh None with w :: _ => negb (builtin w) | [] => false end.
(** The lines of a .ONESHELL recipe. *)
Fixpoint recipe_lines (fuel : nat) (s : str) : list str * str :=
  match fuel with
  | 0 => ([], s)
  | S fuel' => match filter (fun x => match snd x with c :: _ => (c =?c c_nl) && negb (odd_after (fst x)) | [] => false end) (divisions s) with
               | x :: _ => let (ls, l) := recipe_lines fuel' (tl (snd x)) in (fst x :: ls, l)
               | [] => ([], s)
               end
  end.
Fixpoint blank_less (s : str) : str := match s with c :: q => if isblank c then blank_less q else s | [] => [] end.
Fixpoint name_of (p acc : str) : str := match p with [] => acc | c :: q => if (c =?c c_slash) || (c =?c c_bslash) then name_of q [] else name_of q (acc ++ [c]) end.

Definition t_direct (line : str) (restp : bool) (shell flags ifs : option str) (argv : list str) (rest : option str) : bool :=
  (fold_right (fun a n => S (length a) + n) 0 argv <=? length line + 1) && (length argv <=? length line)
  && (if restp then ostr_eqb rest (after_newline line) else true)
  && if (restp || negb (holds_char c_nl line)) && negb (match rest with None => place_eqb (place_after line) Esc | Some _ => false end) then
       if b_empty_then_joined line then true
       else
         match shell_words line with Some l => strs_eqb l argv | None => false end
         && match written line with Some (w :: _) => negb (b_assignment w) | _ => false end
         && match argv with a :: _ => negb (holds_word a special_utilities) | [] => false end
         && match shell with None => true | Some s => str_eqb s (s2l "/bin/sh") end
         && match flags with None => true | Some f => str_eqb f (s2l "-c") || str_eqb f (s2l "-ec") end
         && match ifs with None => true | Some i => forallb (fun c => (c =?c c_sp) || (c =?c c_tab) || (c =?c c_nl)) i end
     else true.
Definition t_shell (os : bool) (line : str) (restp : bool) (sh fl : str) (argv : list str) (rest : option str) : bool :=
  if os then
    let body := blank_less line in
    let text := if holds_word (name_of sh []) bourne_family
                then let (ls, l) := recipe_lines (S (length body)) body in flat_map (fun l => l ++ [c_nl]) (map drop_prefix ls) ++ drop_prefix l
                else body in
    strs_eqb argv (sh :: space_words fl None ++ [text])
    && (if restp && forallb (fun x => match snd x with c :: _ => negb (c =?c c_nl) || negb (place_eqb (place_after (fst x)) InS) | [] => true end) (divisions line) then ostr_eqb rest None else true)
  else if callable sh && b_flag_text fl then
    if restp then
      existsb (fun x => forallb isblank (fst x) && existsb (fun y => str_eqb (snd y) (the_rest rest) && b_upto_newline (snd x) (fst y)
         && match fst y with [] => true | _ => strs_eqb argv (blank_words sh None ++ blank_words fl None ++ [fst y]) end) (divisions (snd x))) (divisions line)
    else if all_joined line then
      existsb (fun x => forallb isblank (fst x) && strs_eqb argv (blank_words sh None ++ blank_words fl None ++ [snd x])) (divisions line)
    else true
  else true.
(** Nothing is run: up to the rest there is no word. *)
Definition t_nothing (line : str) (rest : option str) : bool :=
  (match rest with None => place_eqb (place_after line) Esc | Some _ => false end)
  || existsb (fun x => str_eqb (snd x) (the_rest rest) && match shell_words (fst x) with Some [] => true | _ => false end
                       && match rest with Some r => match r with c :: _ => c =?c c_nl | [] => false end | None => true end) (divisions line).
Definition or_else (d : str) (o : option str) : str := match o with Some s => s | None => d end.
Definition t_construct (os ped : bool) (line : str) (restp : bool) (shell flags ifs : option str) : bool :=
  match construct os ped 3 line restp shell flags ifs with
  | TooDeep => false
  | Nothing rest => if callable (or_else (s2l "/bin/sh") shell) && b_flag_text (or_else (s2l (if ped then "-ec" else "-c")) flags) then t_nothing line rest else true
  | Direct argv rest => t_direct line restp shell flags ifs argv rest
  | Shell argv rest => t_shell os line restp (or_else (s2l "/bin/sh") shell) (or_else (s2l (if ped then "-ec" else "-c")) flags) argv rest
  end.
(** Plain words need no shell. *)
Definition t_plain (os ped : bool) (line : str) (restp : bool) : bool :=
  match blank_words line None with
  | w :: ws => if b_flag_text line && negb (holds_char c_eq w) && negb (builtin w) then
      match construct os ped 3 line restp (Some (s2l "/bin/sh")) (Some (s2l "-c")) None with Direct argv None => strs_eqb argv (w :: ws) | _ => false end else true
  | [] => true
  end.
(** An empty line runs nothing. *)
Definition t_empty (ped : bool) (line y : str) (sh : str) (fl ifs : option str) : bool :=
  let b := filter isblank line in
  if b_flag_text sh then match construct false ped 3 (b ++ c_nl :: y) true (Some sh) fl ifs with Nothing (Some r) => str_eqb r (c_nl :: y) | _ => false end
    && match construct false ped 3 b true (Some sh) fl ifs with Nothing None => true | _ => false end
  else true.
