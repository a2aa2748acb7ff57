(** What is done to the text of recipes before they are run: src/job.c. *)
From Verif Require Import Base M_Cmd.

(** The backslashes at the head. *)
Fixpoint odd_slashes (r : str) : bool :=
  match r with
  | c :: r' => if c =?c c_bslash then negb (odd_slashes r') else false
  | [] => false
  end.
Fixpoint drop_blanks (s : str) : str := match s with c :: q => if isblank c then drop_blanks q else s | [] => [] end.
(** src/makeint.h:447 NEXT_TOKEN: the space at the head is dropped and added to what was read. *)
Fixpoint next_token (inn t : str) : str * str :=
  match t with c :: q => if isspace c then next_token (c :: inn) q else (inn, t) | [] => (inn, []) end.

(** src/job.c:1543-1597: the inside of a reference.  The line is changed in place: [inn] is the text
    before IN as it was, backwards, and [out] the text before OUT as it is now, backwards.  The characters
    before IN are therefore those of [inn] down to OUT, and then those of [out].  [ref] and [outref] are
    the distances from the beginning of the line. *)
Definition memory (inn out : str) : str := firstn (length inn - length out) inn ++ out.
Definition trim_out (outref : nat) (out : str) : str :=
  let k := length out - outref in drop_blanks (firstn k out) ++ skipn k out.
Fixpoint in_ref (fuel : nat) (opn cls : ascii) (ref outref count : nat) (inn out t : str) : option (str * str * str) :=
  match fuel with
  | 0 => None
  | S fuel' =>
      match t with
      | [] => Some (inn, out, t)
      | c :: q =>
          if (c =?c cls) && (count =? 0) then Some (inn, out, t)
          else
            let count := if c =?c cls then count - 1 else count in
            let other := in_ref fuel' opn cls ref outref (if c =?c opn then S count else count) (c :: inn) (c :: out) q in
            if c =?c c_bslash then
              match q with
              | d :: q' =>
                  if d =?c c_nl then
                    if odd_slashes (firstn (length inn - 1 - ref) (memory inn out)) then in_ref fuel' opn cls ref outref count (c :: inn) (c :: out) q
                    else
                      let '(inn', t') := next_token (d :: c :: inn) q' in
                      in_ref fuel' opn cls ref outref count inn' (c_sp :: trim_out outref out) t'
                  else other
              | [] => other
              end
            else other
      end
  end.
Fixpoint strchr_dollar (t : str) : option (str * str) :=
  match t with
  | [] => None
  | c :: t' => if c =?c c_dollar then Some ([], t') else match strchr_dollar t' with Some (a, b) => Some (c :: a, b) | None => None end
  end.
(** src/job.c:1531-1603: the whole line. *)
Fixpoint in_line (fuel : nat) (inn out t : str) : option str :=
  match fuel with
  | 0 => None
  | S fuel' =>
      match strchr_dollar t with
      | None => Some (rev out ++ t)
      | Some (a, b) =>
          let inn := c_dollar :: rev a ++ inn in
          let out := c_dollar :: rev a ++ out in
          match b with
          | o :: b' =>
              if (o =?c c_lparen) || (o =?c c_lbrace) then
                match in_ref (S (length b')) o (if o =?c c_lparen then c_rparen else c_rbrace) (length inn) (S (length out)) 0 (o :: inn) (o :: out) b' with
                | Some (inn', out', t') => in_line fuel' inn' out' t'
                | None => None
                end
              else in_line fuel' inn out b
          | [] => in_line fuel' inn out b
          end
      end
  end.
Definition collapse (t : str) : option str := in_line (S (length t)) [] [] t.

(** src/job.c:1062-1076: the recipe prefix after a newline. *)
Fixpoint no_prefix (prefix : ascii) (p : str) : str :=
  match p with
  | [] => []
  | c :: q =>
      c :: (if c =?c c_nl then match q with d :: q' => if d =?c prefix then no_prefix prefix q' else no_prefix prefix q | [] => [] end
            else no_prefix prefix q)
  end.
(** src/job.c:1034-1050: the flags of a command. *)
Fixpoint skip_flags (p : str) : str :=
  match p with
  | c :: q => if (c =?c c_at) || (c =?c c_plus) || (c =?c c_minus) || isblank c then skip_flags q else p
  | [] => []
  end.
(** src/job.c:1012-1092, 1343-1361 (job_next_command): the commands run for one line of the recipe after
    expansion, with the default shell; each starts where *RESTP left the one before. *)
Fixpoint run_line (fuel : nat) (prefix : ascii) (p : str) : option (list run) :=
  match fuel with
  | 0 => None
  | S fuel' =>
      let p := no_prefix prefix (skip_flags p) in
      let r := construct false false 2 p true None None None in
      match r with
      | Nothing (Some (_ :: rest)) | Direct _ (Some (_ :: rest)) | Shell _ (Some (_ :: rest)) =>
          match run_line fuel' prefix rest with Some l => Some (r :: l) | None => None end
      | TooDeep => None
      | _ => Some [r]
      end
  end.

(** src/function.c:1376-1403 fold_newlines: the text written, and the position of the last character that
    is not a newline, plus one. *)
Fixpoint fold_loop (src dst : str) (last : nat) : str * nat :=
  match src with
  | [] => (dst, last)
  | c :: q =>
      if c =?c c_nul then (dst, last)
      else if (c =?c c_cr) && match q with d :: _ => d =?c c_nl | [] => false end then fold_loop q dst last
      else if c =?c c_nl then fold_loop q (dst ++ [c_sp]) last
      else fold_loop q (dst ++ [c]) (S (length dst))
  end.
Definition fold_newlines (trim : bool) (src : str) : str :=
  let '(dst, last) := fold_loop src [] 0 in
  firstn (if negb trim && (last + 1 <? length dst) then length dst - 1 else last) dst.
