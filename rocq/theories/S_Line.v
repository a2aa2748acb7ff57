(** Logical lines: a backslash before a newline continues the line, unless it is itself the second of a
    pair. *)
From Verif Require Import Base.

(** The first logical line of a text, the number of its newlines, and what remains.  [odd]: the last
    character was a backslash that is not the second of a pair. *)
Fixpoint cut (odd : bool) (t : str) : str * nat * str :=
  match t with
  | [] => ([], 0, [])
  | c :: t' =>
      if c =?c c_nl then
        if odd then let '(l, n, r) := cut false t' in (c :: l, S n, r) else ([], 1, t')
      else let '(l, n, r) := cut ((c =?c c_bslash) && negb odd) t' in (c :: l, n, r)
  end.
(** A carriage return before a newline is not part of the text. *)
Fixpoint dropcr (t : str) : str :=
  match t with
  | [] => []
  | c :: t' => match t' with d :: _ => if (c =?c c_cr) && (d =?c c_nl) then dropcr t' else c :: dropcr t' | [] => [c] end
  end.
(** The logical lines with the numbers of their first lines. *)
Inductive logical (n : nat) : str -> list (nat * str) -> Prop :=
| lo_end : logical n [] []
| lo_line t l k r ls : t <> [] -> cut false t = (l, k, r) -> logical (n + k) r ls -> logical n t ((n, l) :: ls).
