(** Specifications for the text functions. *)
From Verif Require Import Base S_Quote.

(** The whitespace separated words of a text, one character at a time. *)
Definition flush (cur : str) : list str := match cur with [] => [] | _ => [cur] end.
Fixpoint words_from (cur s : str) : list str :=
  match s with
  | [] => flush cur
  | c :: s' => if isspace c then flush cur ++ words_from [] s' else words_from (cur ++ [c]) s'
  end.
Definition words (s : str) : list str := words_from [] s.

(** Joined by single spaces. *)
Fixpoint unwords (ws : list str) : str :=
  match ws with
  | [] => []
  | [w] => w
  | w :: ws' => w ++ c_sp :: unwords ws'
  end.

Definition all_space (s : str) : Prop := forall c, In c s -> isspace c = true.
Definition no_space (s : str) : Prop := forall c, In c s -> isspace c = false.
(** [s] can follow / precede a word boundary. *)
Definition starts_space (s : str) : Prop := match s with [] => True | c :: _ => isspace c = true end.
Definition ends_space (s : str) : Prop := starts_space (rev s).

(** Decimal numerals, possibly surrounded by white space. *)
Definition is_dig (c : ascii) : Prop := 48 <= nat_of_ascii c <= 57.
Definition dec_value (ds : str) : Z :=
  fold_left (fun acc c => acc * 10 + (Z.of_nat (nat_of_ascii c) - 48))%Z ds 0%Z.
Definition numeral (n : str) (v : Z) : Prop :=
  exists pre ds post, n = pre ++ ds ++ post /\ all_space pre /\ all_space post /\
    ds <> [] /\ Forall is_dig ds /\ v = dec_value ds.

(** The words number S..E of a text as one piece of it. *)
Definition word_range (t : str) (s e : nat) (u : str) : Prop :=
  exists pre post, t = pre ++ u ++ post /\
    words pre = firstn (s - 1) (words t) /\
    words u = firstn (e - s + 1) (skipn (s - 1) (words t)) /\
    words post = skipn e (words t) /\
    ends_space pre /\ starts_space post /\
    (forall c u', u = c :: u' -> isspace c = false) /\
    (forall c u', u = u' ++ [c] -> isspace c = false).

Definition occurs (f x : str) : Prop := exists p q, x = p ++ f ++ q.
(** Leftmost, non overlapping replacement. *)
Inductive subst_rel (f t : str) : str -> str -> Prop :=
| sr_none x : ~ occurs f x -> subst_rel f t x x
| sr_hit pre post out :
    (forall p q, pre ++ f ++ post = p ++ f ++ q -> length pre <= length p) ->
    subst_rel f t post out ->
    subst_rel f t (pre ++ f ++ post) (pre ++ t ++ out).

(** A pattern: text before the first unquoted percent (backslashes resolved) and the text
    after it, if there is one. *)
Definition pattern_of (p : str) : str * option str :=
  let (b, r) := unq (fun c => c =?c c_percent) 0 p in (b, option_map (@tl ascii) r).

(** [word_matches p w stem]. *)
Inductive stem_of : str * option str -> str -> str -> Prop :=
| stem_pct pre post stem : stem_of (pre, Some post) (pre ++ stem ++ post) stem
| stem_lit w : stem_of (w, None) w [].
Definition fill_in (r : str * option str) (stem : str) : str :=
  match r with
  | (pre, Some post) => pre ++ stem ++ post
  | (lit, None) => lit
  end.

(** What patsubst does to one word. *)
Inductive word_subst (p r : str * option str) : str -> str -> Prop :=
| ws_hit w stem : stem_of p w stem -> word_subst p r w (fill_in r stem)
| ws_miss w : (forall stem, ~ stem_of p w stem) -> word_subst p r w w.

(** A text with every word replaced, white space kept: [keep_subst R x y]. *)
Inductive keep_subst (R : str -> str -> Prop) : str -> str -> Prop :=
| ks_end sp : all_space sp -> keep_subst R sp sp
| ks_word sp w w' x y :
    all_space sp -> w <> [] -> no_space w -> starts_space x -> R w w' ->
    keep_subst R x y -> keep_subst R (sp ++ w ++ x) (sp ++ w' ++ y).

(** Replacement text as written: percent re-inserted. *)
Definition raw_of (r : str * option str) : str :=
  match r with (pre, Some post) => pre ++ c_percent :: post | (lit, None) => lit end.

(** Unsigned byte order. *)
Inductive byte_lt : str -> str -> Prop :=
| bl_nil c s : byte_lt [] (c :: s)
| bl_head a b s t : nat_of_ascii a < nat_of_ascii b -> byte_lt (a :: s) (b :: t)
| bl_tail a s t : byte_lt s t -> byte_lt (a :: s) (a :: t).

(** Directory part and file part of a word. *)
Definition dir_split (p : str * str) : Prop :=
  ~ In c_slash (snd p) /\ (fst p = [] \/ exists d, fst p = d ++ [c_slash]).
(** Base name and suffix of a word. *)
Definition suffix_split (p : str * str) : Prop :=
  (exists s, snd p = c_dot :: s /\ ~ In c_dot s /\ ~ In c_slash s) \/
  (snd p = [] /\ forall a b, fst p = a ++ c_dot :: b -> In c_slash b).

Definition nonempty (s : str) : bool := match s with [] => false | _ => true end.

(** Pairwise concatenation, the longer list's rest kept. *)
Fixpoint zip_app (a b : list str) : list str :=
  match a, b with
  | x :: a', y :: b' => (x ++ y) :: zip_app a' b'
  | [], b => b
  | a, [] => a
  end.

(** The order $(sort) uses: first characters as signed chars, then bytes. *)
Definition signed (c : ascii) : Z :=
  if nat_of_ascii c <? 128 then Z.of_nat (nat_of_ascii c) else (Z.of_nat (nat_of_ascii c) - 256)%Z.
Inductive sort_lt : str -> str -> Prop :=
| sl_head a b s t : (signed a < signed b)%Z -> sort_lt (a :: s) (b :: t)
| sl_tail a s t : byte_lt s t -> sort_lt (a :: s) (a :: t).
Definition ascii_start (s : str) : Prop := exists c t, s = c :: t /\ nat_of_ascii c < 128.

Definition matches_any (pats : str) (w : str) : Prop :=
  exists p stem, In p (words pats) /\ stem_of (pattern_of p) w stem.
