(** Specifications for backslash quoting and line joining. *)
From Verif Require Import Base.

(** Reading a string left to right, [n] = backslashes just seen.  A special character
    after [n] backslashes halves them; it is a hit exactly if [n] is even. *)
Fixpoint unq (special : ascii -> bool) (n : nat) (s : str) : str * option str :=
  match s with
  | [] => (repeat c_bslash n, None)
  | c :: s' =>
      if c =?c c_bslash then unq special (S n) s'
      else if special c then
        if Nat.even n then (repeat c_bslash (n / 2), Some s)
        else let (b, r) := unq special 0 s' in (repeat c_bslash (n / 2) ++ c :: b, r)
      else let (b, r) := unq special 0 s' in (repeat c_bslash n ++ c :: b, r)
  end.

(** Quoting as the manual describes: double the backslashes in front of a special
    character and add one.  [quote_open] in addition doubles trailing backslashes, so that
    a special character may follow unquoted. *)
Fixpoint quote_aux (fin : nat -> nat) (special : ascii -> bool) (n : nat) (s : str) : str :=
  match s with
  | [] => repeat c_bslash (fin n)
  | c :: s' =>
      if c =?c c_bslash then quote_aux fin special (S n) s'
      else if special c then repeat c_bslash (2 * n + 1) ++ c :: quote_aux fin special 0 s'
      else repeat c_bslash n ++ c :: quote_aux fin special 0 s'
  end.
Definition quote special s := quote_aux (fun n => n) special 0 s.
Definition quote_open special s := quote_aux (fun n => 2 * n) special 0 s.

(** Parenthesis-balanced text, as inside a variable reference. *)
Inductive balanced (o c : ascii) : str -> Prop :=
| bal_nil : balanced o c []
| bal_char x b : x <> o -> x <> c -> balanced o c b -> balanced o c (x :: b)
| bal_paren b1 b2 : balanced o c b1 -> balanced o c b2 ->
                    balanced o c (o :: b1 ++ c :: b2).

(** Lines of a text: split at every newline. *)
Fixpoint split_lines (s : str) : list str :=
  match s with
  | [] => [[]]
  | c :: s' =>
      if c =?c c_nl then [] :: split_lines s'
      else match split_lines s' with
           | l :: ls => (c :: l) :: ls
           | [] => [[c]]
           end
  end.

Fixpoint lstrip (s : str) : str :=
  match s with
  | c :: s' => if isblank c then lstrip s' else s
  | [] => []
  end.
Definition rstrip (s : str) : str := rev (lstrip (rev s)).

Fixpoint leading_bs (s : str) : nat :=
  match s with
  | c :: s' => if c =?c c_bslash then S (leading_bs s') else 0
  | [] => 0
  end.
Definition trailing_bs (s : str) : nat := leading_bs (rev s).
(** The line with its trailing backslashes halved. *)
Definition halve (s : str) : str :=
  firstn (length s - trailing_bs s) s ++ repeat c_bslash (trailing_bs s / 2).

(** Joining: [acc] is the text so far; a line with an odd number of trailing backslashes
    continues on the next one, blanks around the join become one space (POSIX mode keeps
    those in front). *)
Fixpoint join_lines (posix strip : bool) (acc : str) (ls : list str) : str :=
  match ls with
  | [] => acc
  | l :: ls' =>
      let l := if strip then lstrip l else l in
      match ls' with
      | [] => acc ++ l
      | _ =>
          let text := acc ++ halve l in
          if Nat.odd (trailing_bs l)
          then join_lines posix true ((if posix then text else rstrip text) ++ [c_sp]) ls'
          else join_lines posix false (text ++ [c_nl]) ls'
      end
  end.

(** Every newline of [s] is preceded by an odd number of backslashes (line by line, after
    leading blanks are removed, which does not change the count for a nonblank line). *)
Fixpoint all_continued (ls : list str) : Prop :=
  match ls with
  | [] => True
  | l :: ls' => match ls' with [] => True | _ => Nat.odd (trailing_bs l) = true /\ all_continued ls' end
  end.

(** Characters joining never touches. *)
Definition solid (c : ascii) : bool :=
  negb (isblank c) && negb (c =?c c_nl) && negb (c =?c c_bslash).
