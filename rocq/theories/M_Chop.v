(** Recipes cut into lines: src/commands.c. *)
From Verif Require Import Base M_Text.
Open Scope string_scope.
Open Scope list_scope.
Open Scope nat_scope.

(** Number of backslashes at the front (of a reversed line). *)
Fixpoint lead_bs (s : str) : nat :=
  match s with
  | c :: s' => if c =?c c_bslash then S (lead_bs s') else 0
  | [] => 0
  end.

(** src/commands.c:353-371: the end of the line that starts at p; [acc] is the text from p to
    end, reversed.  The loop over b goes back no further than p.  Second component: the text
    after the newline, if any. *)
Fixpoint take_line (acc s : str) : str * str :=
  match s with
  | [] => (rev acc, [])
  | c :: s' =>
      if c =?c c_nl then if Nat.odd (lead_bs acc) then take_line (c :: acc) s' else (rev acc, s')
      else take_line (c :: acc) s'
  end.

Definition store (arr : list str) (i : nat) (x : str) : list str := firstn i arr ++ x :: skipn (S i) arr.

Section Width.
  Variable width : nat.                 (* USHRT_MAX + 1: idx is an unsigned short *)

  (** src/commands.c:351-386.  [None]: out of fuel. *)
  Fixpoint chop_loop (fuel : nat) (s : str) (idx : nat) (arr : list str) : option (list str) :=
    match s with
    | [] => Some (firstn idx arr)
    | _ =>
        match fuel with
        | O => None
        | S f =>
            let '(line, rest) := take_line [] s in
            chop_loop f rest (if S idx =? width then 0 else S idx) (store arr idx line)
        end
    end.

  (** src/commands.c:336-392.  (The test of line 391 comes too late to see more lines.) *)
  Definition strip_nl (s : str) : str :=
    match rev s with
    | c :: r => if c =?c c_nl then rev r else s
    | [] => s
    end.
  Definition chop_lines (one_shell : bool) (s : str) : option (list str) :=
    if one_shell then Some [strip_nl s] else chop_loop (length s) s 0 [].

  Record cflags := mkflags { f_recurse : bool; f_silent : bool; f_noerror : bool }.

  (** src/commands.c:402-426. *)
  Fixpoint scan_prefix (p : str) (f : cflags) : cflags * str :=
    match p with
    | c :: p' =>
        if c =?c c_plus then scan_prefix p' (mkflags true (f_silent f) (f_noerror f))
        else if c =?c c_at then scan_prefix p' (mkflags (f_recurse f) true (f_noerror f))
        else if c =?c c_minus then scan_prefix p' (mkflags (f_recurse f) (f_silent f) true)
        else if isblank c then scan_prefix p' f
        else (f, p)
    | [] => (f, p)
    end.
  Definition line_flags (line : str) : cflags :=
    let '(f, p) := scan_prefix line (mkflags false false false) in
    if negb (f_recurse f) && (match strstr p (s2l "$(MAKE)") with Some _ => true | None => false end
                              || match strstr p (s2l "${MAKE}") with Some _ => true | None => false end)
    then mkflags true (f_silent f) (f_noerror f) else f.

  (** src/commands.c:319-431 chop_commands for commands not yet chopped: the lines with their
      flags, and any_recurse. *)
  Definition chop_commands (one_shell : bool) (s : str) : option (list (str * cflags) * bool) :=
    match chop_lines one_shell s with
    | None => None
    | Some ls =>
        let l := map (fun x => (x, line_flags x)) ls in
        Some (l, existsb (fun x => f_recurse (snd x)) l)
    end.
End Width.
