(** How a line is cut into arguments, as a grammar. *)
From Verif Require Import Base.

(** Text between quotes Q and what it stands for. *)
Inductive inside (q : ascii) : str -> str -> Prop :=
| in_nil : inside q [] []
| in_char : forall c t v, c <> q -> c <> c_bslash -> inside q t v -> inside q (c :: t) (c :: v)
| in_esc : forall c t v, inside q t v -> inside q (c_bslash :: c :: t) (c :: v).

Definition quote_char (q : ascii) : Prop := q = c_sq \/ q = c_dq.

(** A word and what it stands for. *)
Inductive aword : str -> str -> Prop :=
| w_nil : aword [] []
| w_char : forall c t v, ~ quote_char c -> c <> c_bslash -> isblank c = false -> aword t v -> aword (c :: t) (c :: v)
| w_esc : forall c t v, aword t v -> aword (c_bslash :: c :: t) (c :: v)
| w_quote : forall q i u t v, quote_char q -> inside q i u -> aword t v -> aword (q :: i ++ q :: t) (u ++ v).

(** A last word cut short: after a backslash, or inside quotes. *)
Inductive cut_short : str -> str -> Prop :=
| cs_word : forall t v, aword t v -> cut_short t v
| cs_bslash : forall t v, aword t v -> cut_short (t ++ [c_bslash]) v
| cs_quote : forall t v q i u, aword t v -> quote_char q -> inside q i u -> cut_short (t ++ q :: i) (v ++ u)
| cs_quote_bslash : forall t v q i u, aword t v -> quote_char q -> inside q i u -> cut_short (t ++ q :: i ++ [c_bslash]) (v ++ u).

Definition blanks (b : str) : Prop := Forall (fun c => isblank c = true) b.
Definition begins_word (s : str) : Prop := exists c t, s = c :: t /\ isblank c = false.

(** A line and its arguments. *)
Inductive aline : str -> list str -> Prop :=
| l_blank : forall b, blanks b -> aline b [ [] ]
| l_last : forall b t v, blanks b -> begins_word t -> cut_short t v -> aline (b ++ t) [v]
| l_last_blank : forall b t v b', blanks b -> begins_word t -> aword t v -> blanks b' -> aline (b ++ t ++ b') [v]
| l_more : forall b t v b' s l, blanks b -> begins_word t -> aword t v -> blanks b' -> b' <> [] ->
    begins_word s -> aline s l -> aline (b ++ t ++ b' ++ s) (v :: l).

(** One way to quote: in single quotes, with backslashes before backslashes and quotes. *)
Definition quoted (a : str) : str :=
  c_sq :: flat_map (fun c => if (c =?c c_sq) || (c =?c c_bslash) then [c_bslash; c] else [c]) a ++ [c_sq].
Fixpoint spaced (l : list str) : str :=
  match l with
  | [] => []
  | [a] => a
  | a :: l' => a ++ c_sp :: spaced l'
  end.
