(** How the text of recipes should be treated. *)
From Verif Require Import Base.

(** A line of a recipe is read from left to right.  [Out]: outside of references.  [In opn cls depth odd white
    joined]: inside of one; [odd]: after a backslash that is not the second of a pair; [white]: the white space
    before this place that is not yet written; [joined]: this white space has a continuation in it, so that it
    is written as one space. *)
Inductive place := Out | In (opn cls : ascii) (depth : nat) (odd : bool) (white : str) (joined : bool).
Fixpoint tidy (w : place) (t : str) : str :=
  match t with
  | [] => match w with Out => [] | In _ _ _ _ white _ => white end
  | c :: q =>
      match w with
      | Out =>
          c :: (if c =?c c_dollar then
                  match q with
                  | o :: q' =>
                      if o =?c c_lparen then o :: tidy (In o c_rparen 0 false [] false) q'
                      else if o =?c c_lbrace then o :: tidy (In o c_rbrace 0 false [] false) q'
                      else tidy Out q
                  | [] => []
                  end
                else tidy Out q)
      | In opn cls depth odd white joined =>
          if joined && isspace c then tidy (In opn cls depth false white true) q
          else if isblank c then tidy (In opn cls depth false (white ++ [c]) joined) q
          else if (c =?c cls) && (depth =? 0) then white ++ c :: tidy Out q
          else
            let depth' := if c =?c cls then depth - 1 else if c =?c opn then S depth else depth in
            let plain := white ++ c :: tidy (In opn cls depth' ((c =?c c_bslash) && negb odd) [] false) q in
            if (c =?c c_bslash) && negb odd then
              match q with
              | d :: q' => if d =?c c_nl then tidy (In opn cls depth false [c_sp] true) q' else plain
              | [] => plain
              end
            else plain
      end
  end.

(** Two backslashes before a newline. *)
Definition doubled (t : str) : Prop := exists a b, t = a ++ c_bslash :: c_bslash :: c_nl :: b.

(** Lines. *)
Fixpoint unlines (l : str) (ls : list str) : str := match ls with [] => l | x :: ls' => l ++ c_nl :: unlines x ls' end.
Definition less_prefix (prefix : ascii) (l : str) : str := match l with c :: q => if c =?c prefix then q else l | [] => [] end.
(** A continuation. *)
Definition continued (t : str) : Prop := exists a b, t = a ++ c_bslash :: c_nl :: b.
(** Neither white space nor a backslash. *)
Definition solid (c : ascii) : bool := negb (isspace c || (c =?c c_bslash)).

(** The output of a command as one line: without the newlines at its end ([all]) or without the one at its
    end, the others as spaces. *)
Fixpoint drop_nls (r : str) : str := match r with c :: q => if c =?c c_nl then drop_nls q else r | [] => [] end.
Definition drop_nl (r : str) : str := match r with c :: q => if c =?c c_nl then q else r | [] => [] end.
Definition folded (all : bool) (t : str) : str :=
  map (fun c => if c =?c c_nl then c_sp else c) (rev ((if all then drop_nls else drop_nl) (rev t))).
