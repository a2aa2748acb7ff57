(** Lists of file names: src/read.c parse_file_seq, src/file.c split_prereqs, src/function.c string_glob. *)
From Verif Require Import Base M_Text M_Quote M_Implicit.
Open Scope string_scope.
Open Scope list_scope.
Open Scope nat_scope.

(** What glob() says. *)
Inductive gres := GFound (l : list str) | GNoMatch | GOther.
(** [Overrun]: tmpbuf is written past its end.  [Fatal]: make stops. *)
Inductive outcome := Names (l : list str) (rest : str) | Overrun | Fatal | NoFuel.

Definition ends_paren (w : str) : bool := match rev w with c :: _ => c =?c c_rparen | [] => false end.
Definition starts_with (c : ascii) (w : str) : bool := match w with d :: _ => d =?c c | [] => false end.
(** strchr (tp, '(') *)
Fixpoint at_paren (w : str) : option (str * str) :=
  match w with
  | [] => None
  | c :: w' => if c =?c c_lparen then Some ([], w') else match at_paren w' with Some (a, b) => Some (c :: a, b) | None => None end
  end.
Fixpoint skip_slashes (s : str) : str := match s with c :: s' => if c =?c c_slash then skip_slashes s' else s | [] => [] end.
(** src/read.c:3236-3245: the loop that skips "./". *)
Fixpoint strip_dots (fuel : nat) (s : str) : str :=
  match fuel, s with
  | S fuel', a :: b :: c :: r => if (a =?c c_dot) && (b =?c c_slash) then strip_dots fuel' (skip_slashes (c :: r)) else s
  | _, _ => s
  end.
(** src/read.c:3251-3258: a name stripped to empty. *)
Definition or_dot (w : str) : str := match w with [] => [c_dot; c_slash] | a :: b => a :: b end.
(** src/ar.c:219-249 ar_glob_pattern_p with QUOTE. *)
Fixpoint ar_pattern (opened : bool) (s : str) : bool :=
  match s with
  | [] => false
  | c :: s' =>
      if (c =?c "?") || (c =?c "*") then true
      else if c =?c c_bslash then match s' with _ :: s'' => ar_pattern opened s'' | [] => false end
      else if c =?c "[" then ar_pattern true s'
      else if (c =?c "]") && opened then true
      else ar_pattern opened s'
  end.
(** src/ar.c:48-49: the unsupported lib((entry)). *)
Definition ar_fatal (n : str) : bool :=
  match at_paren n with
  | Some (_, m) => starts_with c_lparen m && match rev m with _ :: d :: _ => d =?c c_rparen | _ => false end
  | None => false
  end.

Section Seq.
  (** [stop]: the stop map without NUL.  The flags are those of parse_file_seq; [nocache] is PARSEFS_NOCACHE;
      [prefix]: [None] for a null pointer. *)
  Variable stop : ascii -> bool.
  Variables oneword nostrip noar noglob exist nocache : bool.
  Variable prefix : option str.
  (** remake_tilde_expand, glob, and the sorted members of an archive that match a pattern. *)
  Variable tilde : str -> option str.
  Variable glob : str -> gres.
  Variable members : str -> str -> list str.

  Definition findmap (c : ascii) : bool := stop c || (negb oneword && isblank c).
  Definition with_prefix (s : str) : str := match prefix with Some p => p ++ s | None => s end.

  (** src/read.c:3298-3300: the end of a word, without quoting. *)
  Fixpoint raw_word (e : str) : str * str :=
    match e with
    | [] => ([], [])
    | c :: e' => if findmap c then ([], e) else let (w, r) := raw_word e' in (c :: w, r)
    end.
  (** src/read.c:3290-3317: is there a word that ends in a parenthesis? *)
  Fixpoint ahead (fuel : nat) (e : str) : bool :=
    match fuel with
    | O => false
    | S fuel' =>
        let t := next_token e in
        let (w, r) := raw_word t in
        match w with
        | [] => if length t =? length e then false else match r with [] => false | _ => ahead fuel' r end
        | _ => if ends_paren w then true else match r with [] => false | _ => ahead fuel' r end
        end
    end.

  (** src/read.c:3343-3448: a name becomes elements of the list.  [None]: ar_name stops make. *)
  Definition globbed (name : str) : list str :=
    if negb exist && negb (existsb (fun c => (c =?c "?") || (c =?c "*") || (c =?c "[")) name) then [name]
    else match glob name with
         | GFound l => l
         | GNoMatch => if exist then [] else [name]
         | GOther => [name]
         end.
  Definition emit (name : str) : option (list str) :=
    if noglob then Some [with_prefix name]
    else
      let name := if starts_with "~" name then match tilde name with Some n => n | None => name end else name in
      if negb noar && ar_fatal name && ar_name name then None
      else if negb noar && ar_name name then
        match at_paren name with
        | Some (ar, m) =>
            let mem := removelast m in
            Some (flat_map (fun x =>
              let found := if ar_pattern false mem then members x mem else [] in
              match found with
              | [] => [with_prefix (x ++ c_lparen :: mem ++ [c_rparen])]
              | _ :: _ =>
                  (* the variable NAME is the name of the archive *)
                  if nocache || match prefix with Some _ => true | None => false end then map (fun _ => with_prefix ar) found
                  else map (fun y => x ++ c_lparen :: y ++ [c_rparen]) found
              end) (globbed ar))
        | None => Some []
        end
      else Some (map with_prefix (globbed name)).
  Definition put (x : option (list str)) (o : outcome) : outcome :=
    match x with
    | None => Fatal
    | Some l => match o with Names l' r => Names (l ++ l') r | _ => o end
    end.

  (** src/read.c:3203-3449: the loop.  [size]: the size of tmpbuf; [grp]: what tmpbuf has before TP. *)
  Fixpoint seq_loop (fuel size : nat) (grp p : str) : outcome :=
    match fuel with
    | O => NoFuel
    | S fuel' =>
        match next_token p with
        | [] => Names [] []
        | c :: t =>
            if stop c then Names [] (c :: t)
            else
              match find_map_unquote findmap false (c :: t) with
              | None => NoFuel
              | Some fd =>
                  let rest := match f_rest fd with Some r => r | None => [] end in
                  let w := if nostrip then f_before fd else strip_dots (length (f_before fd)) (f_before fd) in
                  let w := or_dot w in
                  if size <? S (length grp + length w) then Overrun
                  else
                    let opened :=
                      match grp with
                      | [] => if noar || starts_with c_lparen w || ends_paren w then None
                              else match at_paren w with Some (a, b) => if ahead (S (length rest)) rest then Some (a ++ [c_lparen], b) else None | None => None end
                      | _ :: _ => None
                      end in
                    let '(grp, w) := match opened with Some x => x | None => (grp, w) end in
                    match w with
                    | [] => seq_loop fuel' size grp rest
                    | _ :: _ =>
                        match grp with
                        | [] => put (emit w) (seq_loop fuel' size [] rest)
                        | _ :: _ =>
                            if ends_paren w then
                              if length w =? 1 then seq_loop fuel' size [] rest
                              else put (emit (grp ++ w)) (seq_loop fuel' size [] rest)
                            else if size <? S (S (length grp + length w)) then Overrun
                            else put (emit (grp ++ w ++ [c_rparen])) (seq_loop fuel' size grp rest)
                        end
                    end
              end
        end
    end.
  (** src/read.c:3149-3453 parse_file_seq.  tmpbuf has at least the length of the text and one more. *)
  Definition parse_file_seq (text : str) : outcome := seq_loop (S (length text)) (S (length text)) [] text.
End Seq.

Definition no_stop (c : ascii) : bool := false.
(** src/file.c:279-309 split_prereqs: the prerequisites and the order-only ones. *)
Definition split_prereqs tilde glob members (p : str) : option (list str * list str) :=
  match parse_file_seq (fun c => c =?c c_pipe) false false false false false false None tilde glob members p with
  | Names l [] => Some (l, [])
  | Names l (_ :: r) =>
      match parse_file_seq no_stop false false false false false false None tilde glob members r with
      | Names l' _ => Some (l, l')
      | _ => None
      end
  | _ => None
  end.
(** src/function.c:354-403 string_glob. *)
Fixpoint join_sp (l : list str) : str := match l with [] => [] | [a] => a | a :: l' => a ++ c_sp :: join_sp l' end.
Definition string_glob tilde glob members (line : str) : option str :=
  match parse_file_seq no_stop false true false false true true None tilde glob members line with
  | Names l _ => Some (join_sp l)
  | _ => None
  end.
