(** Text functions of src/function.c and the token scanners of src/misc.c.

    A C string is the list of its bytes up to the terminating NUL; a pointer into it is
    the suffix it points to.  The output buffer [o] is the text written so far; "kill the
    last space" ([--o]) removes the last byte.  Loops that advance through a string carry
    fuel, [None] is exhaustion (excluded by every theorem).  [isspace] is that of the C
    locale. *)
From Verif Require Import Base M_Hash M_Quote.

(** src/misc.c:228-233 next_token (makeint.h:447 NEXT_TOKEN). *)
Fixpoint next_token (s : str) : str :=
  match s with
  | c :: s' => if isspace c then next_token s' else s
  | [] => []
  end.

(** src/misc.c:219-224 end_of_token (makeint.h:448): the bytes passed over, and the new
    pointer. *)
Fixpoint end_of_token (s : str) : str * str :=
  match s with
  | c :: s' => if isspace c then ([], s)
               else let (w, r) := end_of_token s' in (c :: w, r)
  | [] => ([], [])
  end.

(** src/misc.c:239-252 find_next_token: the token and the advanced pointer. *)
Definition find_next_token (s : str) : option (str * str) :=
  match next_token s with
  | [] => None
  | p => Some (end_of_token p)
  end.

(** [while ((p = find_next_token (&s, &len)) != 0) ...] with loop state [S]. *)
Fixpoint tok_loop {S : Type} (f : S -> str -> S) (fuel : nat) (st : S) (s : str) : option S :=
  match fuel with
  | O => None
  | Datatypes.S k =>
      match find_next_token s with
      | None => Some st
      | Some (w, r) => tok_loop f k (f st w) r
      end
  end.
Definition each_token {S : Type} (f : S -> str -> S) (st : S) (s : str) : option S :=
  tok_loop f (Datatypes.S (length s)) st s.

(** Output buffer with the [doneany] flag. *)
Record obuf := mko { otext : str; doneany : bool }.
Definition put (o : obuf) (x : str) : obuf := mko (otext o ++ x) (doneany o).
Definition put_sp (o : obuf) : obuf := mko (otext o ++ [c_sp]) true.
(** [if (doneany) --o;] *)
Definition kill_last (o : obuf) : str := if doneany o then removelast (otext o) else otext o.
Definition o0 : obuf := mko [] false.

(** src/function.c:1012-1041 func_strip.  The inner loop is the token scan again, written
    out by hand in C. *)
Fixpoint func_strip_loop (fuel : nat) (o : obuf) (p : str) : option obuf :=
  match fuel with
  | O => None
  | S k =>
      match p with
      | [] => Some o
      | _ =>
          let (w, r) := end_of_token (next_token p) in
          match w with
          | [] => Some o                                   (* if (!i) break; *)
          | _ => func_strip_loop k (put_sp (put o w)) r
          end
      end
  end.
Definition func_strip (a : str) : option str :=
  option_map kill_last (func_strip_loop (S (length a)) o0 a).

(** src/function.c:669-684 func_words, the count before printing with %d. *)
Definition count_words (a : str) : option nat := each_token (fun n _ => S n) 0 a.

(** printf's %d for a nonnegative int: digits produced from the right. *)
Fixpoint show_loop (fuel n : nat) (acc : str) : str :=
  match fuel with
  | O => acc
  | S k =>
      let acc' := ascii_of_nat (48 + n mod 10) :: acc in
      if n / 10 =? 0 then acc' else show_loop k (n / 10) acc'
  end.
Definition show_nat (n : nat) : str := show_loop (S n) n [].

(** src/function.c:669-684 func_words (the counter is an int; a text with more than INT_MAX
    words is not considered). *)
Definition func_words (a : str) : option str := option_map show_nat (count_words a).

(** src/function.c:639-650 func_firstword. *)
Definition func_firstword (a : str) : str :=
  match find_next_token a with Some (w, _) => w | None => [] end.

(** src/function.c:652-667 func_lastword. *)
Definition func_lastword (a : str) : option str := each_token (fun _ w => w) [] a.

(** Results of functions that can stop make ([fatal]) or leave defined behaviour. *)
Inductive res (A : Type) : Type := Ok (a : A) | Fatal | UB | Loops.
Arguments Ok {A} a. Arguments Fatal {A}. Arguments UB {A}. Arguments Loops {A}.
Definition of_fuel {A} (x : option A) : res A :=
  match x with Some a => Ok a | None => Loops end.

(** makeint.h:304 ISDIGIT. *)
Definition isdigit (c : ascii) : bool :=
  (48 <=? nat_of_ascii c) && (nat_of_ascii c <=? 57).
Definition digit_val (c : ascii) : Z := Z.of_nat (nat_of_ascii c) - 48.

(** src/function.c:691-699 strip_whitespace on the whole string. *)
Definition strip_whitespace (s : str) : str := rev (next_token (rev (next_token s))).

(** src/function.c:701-714 check_numeric: passes iff the string is not empty and the
    stripped text has only digits (so a blank string passes). *)
Definition check_numeric (s : str) : bool :=
  match s with
  | [] => false
  | _ => forallb isdigit (strip_whitespace s)
  end.

(** atoi on text accepted by check_numeric: skips white space, reads digits.  A value above
    INT_MAX is undefined behaviour in C. *)
Fixpoint digits_val (acc : Z) (s : str) : Z :=
  match s with
  | c :: s' => if isdigit c then digits_val (acc * 10 + digit_val c) s' else acc
  | [] => acc
  end.
Definition INT_MAX : Z := 2147483647.
Definition atoi (s : str) : option Z :=
  let v := digits_val 0 (next_token s) in
  if (v <=? INT_MAX)%Z then Some v else None.

(** src/function.c:730-736: loop of func_word; [i] counts down. *)
Fixpoint word_loop (fuel : nat) (i : Z) (s : str) : option str :=
  match fuel with
  | O => None
  | S k =>
      match find_next_token s with
      | None => Some []                                     (* i <> 0: no output *)
      | Some (w, r) => if (i - 1 =? 0)%Z then Some w else word_loop k (i - 1)%Z r
      end
  end.

(** src/function.c:717-741 func_word. *)
Definition func_word (n a : str) : res str :=
  if check_numeric n then
    match atoi n with
    | None => UB
    | Some i => if (i =? 0)%Z then Fatal else of_fuel (word_loop (S (length a)) i a)
    end
  else Fatal.

(** src/function.c:767-769: advance to the START-th word: pointer [p] and [end_p]. *)
Fixpoint wl_start (fuel : nat) (start : Z) (s : str) : option (option (str * str)) :=
  match fuel with
  | O => None
  | S k =>
      match find_next_token s with
      | None => Some None
      | Some (_, r) =>
          if (start - 1 =? 0)%Z then Some (Some (next_token s, r))
          else wl_start k (start - 1)%Z r
      end
  end.

(** src/function.c:773-775: advance [end_p] over COUNT - 1 more words. *)
Fixpoint wl_count (fuel : nat) (count : Z) (e : str) : option str :=
  match fuel with
  | O => None
  | S k =>
      if (count - 1 =? 0)%Z then Some e
      else match find_next_token e with
           | None => Some e
           | Some (_, r) => wl_count k (count - 1)%Z r
           end
  end.

(** src/function.c:743-782 func_wordlist; the output is the bytes from [p] to [end_p]. *)
Definition func_wordlist (n m a : str) : res str :=
  if check_numeric n && check_numeric m then
    match atoi n, atoi m with
    | Some start, Some en =>
        if (start <? 1)%Z then Fatal
        else
          let count := (en - start + 1)%Z in
          if (0 <? count)%Z then
            match wl_start (S (length a)) start a with
            | None => Loops
            | Some None => Ok []
            | Some (Some (p, e)) =>
                match wl_count (S (length a)) count e with
                | None => Loops
                | Some e' => Ok (firstn (length p - length e') p)
                end
            end
          else Ok []
    | _, _ => UB
    end
  else Fatal.

(** strstr: text before the first occurrence, and the occurrence with what follows. *)
Fixpoint prefixb (p s : str) : bool :=
  match p, s with
  | [], _ => true
  | x :: p', y :: s' => (x =?c y) && prefixb p' s'
  | _ :: _, [] => false
  end.
Fixpoint strstr (hay needle : str) : option (str * str) :=
  if prefixb needle hay then Some ([], hay)
  else match hay with
       | [] => None
       | c :: hay' =>
           match strstr hay' needle with
           | Some (b, r) => Some (c :: b, r)
           | None => None
           end
       end.

(** src/function.c:784-792 func_findstring. *)
Definition func_findstring (f a : str) : str :=
  match strstr a f with Some _ => f | None => [] end.

Definition last_of (b : str) (d : option ascii) : option ascii :=
  match rev b with c :: _ => Some c | [] => d end.

(** src/function.c:94-128: the loop of subst_expand.  [prev] is [t[-1]], [None] when
    [t == text]. *)
Fixpoint subst_loop (by_word : bool) (sub rep : str) (fuel : nat)
         (o : str) (prev : option ascii) (t : str) : option str :=
  match fuel with
  | O => None
  | S k =>
      let hit :=
        if by_word && (length sub =? 0)
        then let n := next_token t in
             let (w, r) := end_of_token n in
             Some (firstn (length t - length n) t ++ w, r)
        else strstr t sub in
      match hit with
      | None => Some (o ++ t)
      | Some (before, p) =>
          let pm1 := last_of before prev in
          let t' := skipn (length sub) p in
          let struck :=
            by_word &&
            ((match pm1 with Some c => negb (isspace c) | None => false end) ||
             (match t' with c :: _ => negb (isspace c) | [] => false end)) in
          let o' := o ++ before ++ (if struck then sub else rep) in
          match t' with
          | [] => Some o'
          | _ => subst_loop by_word sub rep k o' (last_of sub pm1) t'
          end
      end
  end.

(** src/function.c:78-131 subst_expand. *)
Definition subst_expand (text sub rep : str) (by_word : bool) : option str :=
  if (length sub =? 0) && negb by_word then Some (text ++ rep)
  else subst_loop by_word sub rep (S (length text)) [] None text.

(** src/function.c:629-636 func_subst. *)
Definition func_subst (f t x : str) : option str := subst_expand x f t false.

(** strneq on the first [n] bytes. *)
Definition strneq (a b : str) (n : nat) : bool := str_eqb (firstn n a) (firstn n b).
Definition at_ (s : str) (i : nat) : ascii := nth i s c_nul.

(** src/function.c:180-202: does the word match (the variable [fail] negated); [pre] and
    [post] are the texts before and after the percent. *)
Definition pat_match (pre post t : str) : bool :=
  let len := length t in
  let prelen := length pre in
  let postlen := length post in
  let fail0 := len <? prelen + postlen in
  let fail1 := negb fail0 && (0 <? prelen) &&
               (negb (at_ t 0 =?c at_ pre 0)
                || negb (at_ t (prelen - 1) =?c at_ pre (prelen - 1))
                || negb (strneq (skipn 1 t) (skipn 1 pre) (prelen - 1))) in
  let fail2 := negb fail0 && negb fail1 && (0 <? postlen) &&
               (negb (at_ t (len - 1) =?c at_ post (postlen - 1))
                || negb (at_ t (len - postlen) =?c at_ post 0)
                || negb (strneq (skipn (len - postlen) t) post (postlen - 1))) in
  negb (fail0 || fail1 || fail2).

(** src/function.c:145-234 patsubst_expand_pat.  [ppct] is the text after the percent of
    the pattern ([pattern] then being the text before it), or [None]; likewise [rpct]. *)
Definition patsubst_word (pre post rpre : str) (rpct : option str) (o : obuf) (t : str) : obuf :=
  let len := length t in
  let m := pat_match pre post t in
  let o1 :=
    if m then
      let o := put o rpre in
      match rpct with
      | Some rpost =>
          put (put o (firstn (len - (length pre + length post)) (skipn (length pre) t))) rpost
      | None => o
      end
    else put o t in
  if negb m || (0 <? length rpre)
     || (match rpct with Some rpost => 0 <? len + length rpost | None => false end)
  then put_sp o1 else o1.

Definition patsubst_expand_pat (text pat : str) (ppct : option str)
           (rep : str) (rpct : option str) : option str :=
  match ppct with
  | None => subst_expand text pat (match rpct with
                                   | Some r => rep ++ c_percent :: r
                                   | None => rep end) true
  | Some post =>
      option_map kill_last (each_token (patsubst_word pat post rep rpct) o0 text)
  end.

(** find_percent with the percent itself skipped ([++pattern_percent]). *)
Definition split_percent (f : found) : str * option str :=
  (f_before f, option_map (@tl ascii) (f_rest f)).

(** src/function.c:250-265 patsubst_expand; 409-415 func_patsubst. *)
Definition patsubst_expand (text pat rep : str) : option str :=
  let (p, ppct) := split_percent (find_percent pat) in
  let (r, rpct) := split_percent (find_percent rep) in
  patsubst_expand_pat text p ppct r rpct.
Definition func_patsubst (pat rep text : str) : option str := patsubst_expand text pat rep.

(** src/expand.c:321-370: $(VAR:A=B) applied to the value of VAR.  Without a percent in A,
    both get one in front (here: empty prefix, the rest after it); REPLACE is then not
    searched for one. *)
Definition subst_ref (value a b : str) : option str :=
  match value with
  | [] => Some []
  | _ =>
      let (p, ppct) := split_percent (find_percent a) in
      match ppct with
      | Some _ => let (r, rpct) := split_percent (find_percent b) in
                  patsubst_expand_pat value p ppct r rpct
      | None => patsubst_expand_pat value [] (Some p) [] (Some b)
      end
  end.

(** src/function.c:290-314 pattern_matches. *)
Definition pattern_matches_at (pre post s : str) : bool :=
  if (length s <? length pre + length post) || negb (strneq pre s (length pre)) then false
  else str_eqb post (skipn (length s - length post) s).
Definition pattern_matches (pattern s : str) : bool :=
  match split_percent (find_percent pattern) with
  | (new_chars, None) => str_eqb new_chars s
  | (pre, Some post) => pattern_matches_at pre post s
  end.

(** Tokens of a string from which find_next_token is called repeatedly while stepping over
    the separator (src/function.c:906-925, 931-948): the byte after each token is
    overwritten by NUL, then skipped. *)
Fixpoint chop_tokens (fuel : nat) (s : str) : option (list str) :=
  match fuel with
  | O => None
  | S k =>
      match find_next_token s with
      | None => Some []
      | Some (w, r) => option_map (cons w) (chop_tokens k (tl r))
      end
  end.

(** src/function.c:841-848 struct a_word as an item of the hash table: its index in the
    word list stands for the pointer. *)
Definition aword := (nat * str)%type.
Definition aword_same (a b : aword) : bool := str_eqb (snd a) (snd b).

Section Filter.
  Variable h1 h2 : str -> nat.       (* STRING_HASH_1/2 of the word *)
  Definition wh1 (a : aword) := h1 (snd a).
  Definition wh2 (a : aword) := h2 (snd a).

  (** src/function.c:955-960: insert every word; [chain] maps a word index to the index of
      the word it displaced. *)
  Fixpoint filter_insert (t : ht aword) (ws : list aword) (chain : list (option nat))
    : option (ht aword * list (option nat)) :=
    match ws with
    | [] => Some (t, chain)
    | w :: ws' =>
        match insert aword aword_same wh1 wh2 t w with
        | None => None
        | Some (t', owp) =>
            filter_insert t' ws' (set chain (fst w) (option_map fst owp))
        end
    end.

  (** src/function.c:979-983: follow the chain, marking.  Fuel: the number of words. *)
  Fixpoint mark_chain (fuel : nat) (chain : list (option nat)) (wp : option nat)
           (matched : list bool) : option (list bool) :=
    match wp with
    | None => Some matched
    | Some i =>
        match fuel with
        | O => None
        | S k => mark_chain k chain (nth i chain None) (set matched i true)
        end
    end.

  Definition or_list (m : list bool) (ws : list aword) (f : str -> bool) : list bool :=
    map (fun p => fst p || f (snd (snd p))) (combine m ws).

  (** src/function.c:968-989: one pattern. *)
  Definition filter_pat (ws : list aword) (tbl : option (ht aword * list (option nat)))
             (m : list bool) (pat : str * option str) : option (list bool) :=
    match pat with
    | (pre, Some post) => Some (or_list m ws (pattern_matches_at pre post))
    | (lit, None) =>
        match tbl with
        | Some (t, chain) =>
            match find_item aword aword_same wh1 wh2 t (0, lit) with
            | None => None
            | Some r => mark_chain (length ws) chain (option_map fst r) m
            end
        | None => Some (or_list m ws (fun w => (length w =? length lit)
                                               && strneq lit w (length w)))
        end
    end.

  Fixpoint filter_pats ws tbl (m : list bool) (ps : list (str * option str))
    : option (list bool) :=
    match ps with
    | [] => Some m
    | p :: ps' =>
        match filter_pat ws tbl m p with
        | None => None
        | Some m' => filter_pats ws tbl m' ps'
        end
    end.

  Fixpoint number {B} (n : nat) (l : list B) : list (nat * B) :=
    match l with [] => [] | x :: l' => (n, x) :: number (S n) l' end.

  Definition is_literal (p : str * option str) : bool :=
    match snd p with None => true | Some _ => false end.

  (** src/function.c:991-998. *)
  Definition filter_emit (is_filter : bool) (o : obuf) (p : bool * aword) : obuf :=
    if (if is_filter then fst p else negb (fst p)) then put_sp (put o (snd (snd p))) else o.

  (** src/function.c:881-1009 func_filter_filterout. *)
  Definition func_filter (is_filter : bool) (pats text : str) : option str :=
    match chop_tokens (S (length pats)) pats, chop_tokens (S (length text)) text with
    | Some ps, Some words =>
        let ps := map (fun p => split_percent (find_percent p)) ps in
        let ws := number 0 words in
        let literals := length (filter is_literal ps) in
        let hashing := (2 <=? literals) && (10 <=? literals * length ws) in
        let tbl :=
          if hashing then
            match filter_insert (hash_init aword (N.of_nat (length ws))) ws
                                (repeat None (length ws)) with
            | None => None
            | Some x => Some (Some x)
            end
          else Some None in
        match tbl with
        | None => None
        | Some tbl =>
            match ws with
            | [] => Some []
            | _ =>
                match filter_pats ws tbl (repeat false (length ws)) ps with
                | None => None
                | Some m =>
                    Some (kill_last (fold_left (filter_emit is_filter) (combine m ws) o0))
                end
            end
        end
    | _, _ => None
    end.
End Filter.

(** Signed value of a char (x86: plain char is signed). *)
Definition schar (c : ascii) : Z :=
  let n := Z.of_nat (nat_of_ascii c) in if (n <? 128)%Z then n else (n - 256)%Z.
Definition uchar (c : ascii) : Z := Z.of_nat (nat_of_ascii c).

(** strcmp: sign only (bytes compared unsigned, the terminator is 0). *)
Fixpoint strcmp (a b : str) : Z :=
  match a, b with
  | [], [] => 0
  | [], y :: _ => - uchar y
  | x :: _, [] => uchar x
  | x :: a', y :: b' => if x =?c y then strcmp a' b' else (uchar x - uchar y)%Z
  end.

(** src/misc.c:41-50 alpha_compare. *)
Definition first_char (s : str) : ascii := match s with c :: _ => c | [] => c_nul end.
Definition alpha_compare (a b : str) : Z :=
  if first_char a =?c first_char b then strcmp a b
  else (schar (first_char a) - schar (first_char b))%Z.

(** func_sort steps over the byte after every token without testing for NUL, so the memory
    behind the string matters.  [mem] is the memory from the pointer on, NUL bytes
    included; running off its end is [None] (undefined behaviour). *)
Fixpoint m_next_token (m : str) : option str :=
  match m with
  | [] => None
  | c :: m' => if isspace c then m_next_token m' else Some m
  end.
Fixpoint m_end_of_token (m : str) : option (str * str) :=
  match m with
  | [] => None
  | c :: m' =>
      if isspace c || (c =?c c_nul) then Some ([], m)
      else match m_end_of_token m' with
           | None => None
           | Some (w, r) => Some (c :: w, r)
           end
  end.

(** src/function.c:1118-1126 (and 1107-1112, the same scan only counting). *)
Fixpoint sort_tokens (fuel : nat) (m : str) : res (list str) :=
  match fuel with
  | O => Loops
  | S k =>
      match m_next_token m with
      | None => UB
      | Some p =>
          if first_char p =?c c_nul then Ok []
          else match m_end_of_token p with
               | None => UB
               | Some (w, r) =>
                   match sort_tokens k (tl r) with          (* ++t *)
                   | Ok ws => Ok (w :: ws)
                   | x => x
                   end
               end
      end
  end.

(** src/function.c:1135-1146: write the sorted words, skipping one equal to its successor. *)
Fixpoint sort_write (o : str) (ws : list str) : str :=
  match ws with
  | [] => o
  | w :: ws' =>
      match ws' with
      | [] => sort_write (o ++ w ++ [c_sp]) ws'
      | n :: _ =>
          if negb (length n =? length w) || negb (strcmp w n =? 0)%Z
          then sort_write (o ++ w ++ [c_sp]) ws'
          else sort_write o ws'
      end
  end.

(** src/function.c:1095-1155 func_sort; [qsort] is the C library's. *)
Definition func_sort (qsort : list str -> list str) (mem : str) : res str :=
  match sort_tokens (S (length mem)) mem with
  | Ok [] => Ok []
  | Ok ws => Ok (removelast (sort_write [] (qsort ws)))
  | Fatal => Fatal | UB => UB | Loops => Loops
  end.

(** [p = p2 + len - 1; while (p >= p2 && ! STOP_SET ( *p, stop)) --p;]: index of the last
    stop character, [k] is p - p2 + 1. *)
Fixpoint scan_back (stop : ascii -> bool) (w : str) (k : nat) : option nat :=
  match k with
  | O => None
  | S i => if stop (at_ w i) then Some i else scan_back stop w i
  end.

Definition is_dirsep (c : ascii) : bool := c =?c c_slash.
Definition is_dirsep_dot (c : ascii) : bool := (c =?c c_slash) || (c =?c c_dot).

(** src/function.c:514-557 func_notdir_suffix. *)
Definition notdir_word (o : obuf) (w : str) : obuf :=
  put_sp (match scan_back is_dirsep w (length w) with
          | Some p => put o (skipn (S p) w)
          | None => put o w
          end).
Definition suffix_word (o : obuf) (w : str) : obuf :=
  match scan_back is_dirsep_dot w (length w) with
  | Some p => if at_ w p =?c c_dot then put_sp (put o (skipn p w)) else o
  | None => o
  end.
Definition func_notdir (a : str) : option str := option_map kill_last (each_token notdir_word o0 a).
Definition func_suffix (a : str) : option str := option_map kill_last (each_token suffix_word o0 a).

(** src/function.c:560-597 func_basename_dir. *)
Definition dir_word (o : obuf) (w : str) : obuf :=
  put_sp (match scan_back is_dirsep w (length w) with
          | Some p => put o (firstn (S p) w)
          | None => put o [c_dot; c_slash]
          end).
Definition basename_word (o : obuf) (w : str) : obuf :=
  put_sp (match scan_back is_dirsep_dot w (length w) with
          | Some p => if at_ w p =?c c_dot then put o (firstn p w) else put o w
          | None => put o w
          end).
Definition func_dir (a : str) : option str := option_map kill_last (each_token dir_word o0 a).
Definition func_basename (a : str) : option str :=
  option_map kill_last (each_token basename_word o0 a).

(** src/function.c:599-627 func_addsuffix_addprefix. *)
Definition func_addprefix (fix_ a : str) : option str :=
  option_map kill_last (each_token (fun o w => put_sp (put (put o fix_) w)) o0 a).
Definition func_addsuffix (fix_ a : str) : option str :=
  option_map kill_last (each_token (fun o w => put_sp (put (put o w) fix_)) o0 a).

(** src/function.c:417-454 func_join. *)
Fixpoint join_loop (fuel : nat) (o : obuf) (l1 l2 : str) : option obuf :=
  match fuel with
  | O => None
  | S k =>
      let t1 := find_next_token l1 in
      let t2 := find_next_token l2 in
      let o := match t1 with Some (w, _) => put o w | None => o end in
      let o := match t2 with Some (w, _) => put o w | None => o end in
      let l1 := match t1 with Some (_, r) => r | None => l1 end in
      let l2 := match t2 with Some (_, r) => r | None => l2 end in
      match t1, t2 with
      | None, None => Some o
      | _, _ => join_loop k (put_sp o) l1 l2
      end
  end.
Definition func_join (a b : str) : option str :=
  option_map kill_last (join_loop (S (length a + length b)) o0 a b).
