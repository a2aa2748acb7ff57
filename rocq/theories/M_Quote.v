(** Backslash handling: find_char_unquote, find_map_unquote, find_percent,
    find_percent_cached, unescape_char (src/read.c) and collapse_continuations
    (src/misc.c).

    The C code edits the string in place; here the already scanned part is kept
    reversed in [rp] (so that [p[-1]] is its head) and the part from [p] on is [s].
    [memmove] over the swallowed backslashes becomes dropping them from [rp].  (The
    length passed to memmove uses the original string length, which always ends at the
    original terminator, so it stays inside the buffer.) *)
From Verif Require Import Base.

(** Number of backslashes at the head: the loops "Search for more backslashes". *)
Fixpoint count_bs (s : str) : nat :=
  match s with
  | c :: s' => if c =?c c_bslash then S (count_bs s') else 0
  | [] => 0
  end.

Fixpoint drop {B} (n : nat) (l : list B) : list B :=
  match n, l with
  | O, _ => l
  | S n', _ :: l' => drop n' l'
  | S _, [] => []
  end.

(** Result: the (edited) text before the hit, and the hit with what follows, if any. *)
Record found := mkfound { f_before : str; f_rest : option str }.

(** src/read.c:2405-2442 find_char_unquote. *)
Fixpoint find_char_unquote_loop (stop : ascii) (rp s : str) : found :=
  match s with
  | [] => mkfound (rev rp) None                               (* strchr returned NULL *)
  | c :: s' =>
      if c =?c stop then
        let n := count_bs rp in                               (* i = -n *)
        let rp' := drop (n - n / 2) rp in                     (* memmove, p += i/2 *)
        if Nat.even n then mkfound (rev rp') (Some s)         (* return p *)
        else find_char_unquote_loop stop (c :: rp') s'
      else find_char_unquote_loop stop (c :: rp) s'
  end.

Definition find_char_unquote (string : str) (stop : ascii) : found :=
  find_char_unquote_loop stop [] string.

(** src/read.c:2495-2498 find_percent. *)
Definition find_percent (pattern : str) : found := find_char_unquote pattern c_percent.

(** src/read.c:2507-2572 find_percent_cached: as above on a private copy, with an early
    return when the string starts with a percent.  [p[-1]] is read without a bounds
    check, [None] marks the out of bounds read. *)
Fixpoint find_percent_cached_loop (rp s : str) : option found :=
  match s with
  | [] => Some (mkfound (rev rp) None)
  | c :: s' =>
      if c =?c c_percent then
        match rp with
        | [] => None                                          (* p[-1] before the string *)
        | b :: _ =>
            if b =?c c_bslash then
              let n := count_bs rp in
              let rp' := drop (n - n / 2) rp in
              if Nat.even n then Some (mkfound (rev rp') (Some s))
              else find_percent_cached_loop (c :: rp') s'
            else Some (mkfound (rev rp) (Some s))
        end
      else find_percent_cached_loop (c :: rp) s'
  end.

Definition find_percent_cached (string : str) : option found :=
  match string with
  | c :: _ => if c =?c c_percent then Some (mkfound [] (Some string))
              else find_percent_cached_loop [] string
  | [] => find_percent_cached_loop [] string
  end.

(** src/read.c:2343-2365: skip the contents of $(...) or ${...}: [depth] is pcount - 1,
    returns what was skipped (reversed onto [rp]) and the rest. *)
Fixpoint skip_ref (openp closep : ascii) (depth : nat) (rp s : str) : str * str :=
  match s with
  | [] => (rp, [])
  | c :: s' =>
      if c =?c openp then skip_ref openp closep (S depth) (c :: rp) s'
      else if c =?c closep then
        match depth with
        | O => (c :: rp, s')
        | S d => skip_ref openp closep d (c :: rp) s'
        end
      else skip_ref openp closep depth (c :: rp) s'
  end.

(** src/read.c:2323-2400 find_map_unquote.  [stop] is the stop map without '$' and NUL,
    [var] says whether MAP_VARIABLE is in it.  Fuel: each iteration consumes at least one
    character; [None] is exhaustion. *)
Fixpoint find_map_unquote_loop (stop : ascii -> bool) (var : bool) (fuel : nat)
         (rp s : str) : option found :=
  match fuel with
  | O => None
  | S fuel' =>
      match s with
      | [] => Some (mkfound (rev rp) None)
      | c :: s' =>
          if var && (c =?c c_dollar) then
            match s' with
            | [] => Some (mkfound (rev (c :: rp)) None)
            | o :: s'' =>
                if (o =?c c_lparen) || (o =?c c_lbrace) then
                  let cl := if o =?c c_lparen then c_rparen else c_rbrace in
                  let (rp', r) := skip_ref o cl 0 (o :: c :: rp) s'' in
                  find_map_unquote_loop stop var fuel' rp' r
                else find_map_unquote_loop stop var fuel' (o :: c :: rp) s''
            end
          else if stop c then
            let n := count_bs rp in
            let rp' := drop (n - n / 2) rp in
            if Nat.even n then Some (mkfound (rev rp') (Some s))
            else find_map_unquote_loop stop var fuel' (c :: rp') s'
          else find_map_unquote_loop stop var fuel' (c :: rp) s'
      end
  end.

Definition find_map_unquote (stop : ascii -> bool) (var : bool) (string : str) : option found :=
  find_map_unquote_loop stop var (S (length string)) [] string.

(** src/read.c:2447-2486 unescape_char.  [n] is the number of backslashes just read
    ([l]); a run is emitted in full unless it is odd and precedes [c]. *)
Fixpoint unescape_char_loop (c : ascii) (n : nat) (s : str) : str :=
  match s with
  | [] => repeat c_bslash n
  | d :: s' =>
      if d =?c c_bslash then unescape_char_loop c (S n) s'
      else
        (if (d =?c c) && Nat.odd n then repeat c_bslash (n / 2) else repeat c_bslash n)
          ++ d :: unescape_char_loop c 0 s'
  end.
Definition unescape_char (string : str) (c : ascii) : str := unescape_char_loop c 0 string.

(** src/misc.c:56-118 collapse_continuations.  [out] is the output written so
    far, reversed; [seg] the text between IN and the next newline, reversed. *)
Fixpoint skip_blanks (s : str) : str :=
  match s with
  | c :: s' => if isblank c then skip_blanks s' else s
  | [] => []
  end.

Fixpoint collapse_loop (posix : bool) (skipping : bool) (out seg s : str) : str :=
  match s with
  | [] => rev (seg ++ out)
  | c :: s' =>
      if skipping && isblank c then collapse_loop posix true out seg s'
      else if c =?c c_nl then
        let n := count_bs seg in
        let out' := drop (n - n / 2) seg ++ out in            (* out_line_length *)
        if Nat.odd n then
          let out'' := if posix then out' else skip_blanks out' in
          collapse_loop posix true (c_sp :: out'') [] s'
        else collapse_loop posix false (c_nl :: out') [] s'
      else collapse_loop posix false out (c :: seg) s'
  end.
Definition collapse_continuations (posix : bool) (line : str) : str :=
  collapse_loop posix false [] [] line.
