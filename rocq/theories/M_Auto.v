(** Automatic variables: src/commands.c set_file_variables. *)
From Verif Require Import Base M_Implicit.

(** src/dep.h:46-60 struct dep as set_file_variables sees it: dep_name, ignore_mtime, changed,
    need_2nd_expansion and ignore_automatic_vars. *)
Record adep := mkadep { a_name : str; a_order : bool; a_changed : bool; a_2nd : bool; a_ignored : bool }.
Definition visible (d : adep) : bool := negb (a_2nd d) && negb (a_ignored d).

(** A buffer: its size and what has been written.  [None]: a write past its end. *)
Definition put (size : nat) (buf s : str) : option str :=
  if length buf + length s <=? size then Some (buf ++ s) else None.
(** cp[cp > value ? -1 : 0] = '\0': the last space goes; an empty buffer needs room for the
    terminator. *)
Definition kill_last (size : nat) (buf : str) : option str :=
  match buf with
  | [] => if 1 <=? size then Some [] else None
  | _ => Some (removelast buf)
  end.

(** src/commands.c:198-208 and 269-277: the member of an archive member. *)
Definition shown (n : str) : str :=
  if ar_name n then match from_paren n with Some m => removelast m | None => [] end else n.

(** src/commands.c:170-187: PLUS_LEN and BAR_LEN. *)
Fixpoint name_lengths (order : bool) (ds : list adep) : nat :=
  match ds with
  | [] => 0
  | d :: ds' => (if visible d && Bool.eqb (a_order d) order then length (a_name d) + 1 else 0) + name_lengths order ds'
  end.
Definition at_least_one (n : nat) : nat := match n with 0 => 1 | _ => n end.

(** src/commands.c:194-215: $+ and QMARK_LEN. *)
Fixpoint plus_loop (always : bool) (size : nat) (ds : list adep) (buf : str) (qmark_len : nat) : option (str * nat) :=
  match ds with
  | [] => Some (buf, qmark_len)
  | d :: ds' =>
      if negb (a_order d) && visible d then
        match put size buf (shown (a_name d) ++ [c_sp]) with
        | None => None
        | Some buf' => plus_loop always size ds' buf' (if a_changed d || always then qmark_len else qmark_len - (length (shown (a_name d)) + 1))
        end
      else plus_loop always size ds' buf qmark_len
  end.

(** src/commands.c:241-259: a name listed both ways is not order-only.  DEP_HASH holds the first
    prerequisite of each name (hash tables: C01); [i]: its place. *)
Fixpoint first_with (n : str) (ds : list adep) (i : nat) : option (nat * adep) :=
  match ds with
  | [] => None
  | d :: ds' => if visible d && str_eqb (a_name d) n then Some (i, d) else first_with n ds' (S i)
  end.
Definition no_order (d : adep) : adep := mkadep (a_name d) false (a_changed d) (a_2nd d) (a_ignored d).
Fixpoint set_nth (i : nat) (f : adep -> adep) (ds : list adep) : list adep :=
  match ds, i with
  | [], _ => []
  | d :: ds', 0 => f d :: ds'
  | d :: ds', S i' => d :: set_nth i' f ds'
  end.
Definition upgrade_at (ds : list adep) (i : nat) : list adep :=
  match nth_error ds i with
  | None => ds
  | Some d =>
      if visible d then
        match first_with (a_name d) ds 0 with
        | Some (j, hd) => if (j <? i) && negb (Bool.eqb (a_order d) (a_order hd)) then set_nth i no_order (set_nth j no_order ds) else ds
        | None => ds
        end
      else ds
  end.
Definition upgrade (ds : list adep) : list adep := fold_left upgrade_at (seq 0 (length ds)) ds.

(** src/commands.c:261-295: $^, $? and $|.  [all]: the whole list. *)
Record bufs := mkbufs { b_caret : str; b_qmark : str; b_bar : str }.
Fixpoint caret_loop (always : bool) (plus_max qmark_max bar_max : nat) (all : list adep) (i : nat) (ds : list adep) (b : bufs) : option bufs :=
  match ds with
  | [] => Some b
  | d :: ds' =>
      let next := caret_loop always plus_max qmark_max bar_max all (S i) ds' in
      if visible d && match first_with (a_name d) all 0 with Some (j, _) => j =? i | None => false end then
        let w := shown (a_name d) ++ [c_sp] in
        if a_order d then
          match put bar_max (b_bar b) w with None => None | Some x => next (mkbufs (b_caret b) (b_qmark b) x) end
        else
          match put plus_max (b_caret b) w with
          | None => None
          | Some x =>
              if a_changed d || always then
                match put qmark_max (b_qmark b) w with None => None | Some y => next (mkbufs x y (b_bar b)) end
              else next (mkbufs x (b_qmark b) (b_bar b))
          end
      else next b
  end.

(** The static sizes PLUS_MAX, BAR_MAX, QMARK_MAX. *)
Record sizes := mksizes { z_plus : nat; z_bar : nat; z_qmark : nat }.
Record autos := mkautos { v_plus : str; v_caret : str; v_qmark : str; v_bar : str }.
(** src/commands.c:154-315: the lists.  [None]: a write past the end of a buffer. *)
Definition set_lists (always : bool) (z : sizes) (ds : list adep) : option (autos * list adep * sizes) :=
  let plus_len := at_least_one (name_lengths false ds) in
  let bar_len := at_least_one (name_lengths true ds) in
  let plus_max := max (z_plus z) plus_len in
  match plus_loop always plus_max ds [] (plus_len + 1) with
  | None => None
  | Some (plus, qmark_len) =>
      match kill_last plus_max plus with
      | None => None
      | Some plus =>
          let qmark_max := max (z_qmark z) qmark_len in
          let bar_max := max (z_bar z) bar_len in
          let ds' := upgrade ds in
          match caret_loop always plus_max qmark_max bar_max ds' 0 ds' (mkbufs [] [] []) with
          | None => None
          | Some b =>
              match kill_last plus_max (b_caret b), kill_last qmark_max (b_qmark b), kill_last bar_max (b_bar b) with
              | Some c, Some q, Some r => Some (mkautos plus c q r, ds', mksizes plus_max bar_max qmark_max)
              | _, _, _ => None
              end
          end
      end
  end.

(** src/commands.c:62-88: $@ and $%. *)
Fixpoint before_paren (s : str) : str :=
  match s with [] => [] | c :: s' => if c =?c c_lparen then [] else c :: before_paren s' end.
Definition at_value (name : str) : str := if ar_name name then before_paren name else name.
Definition percent_value (name : str) : str := if ar_name name then match from_paren name with Some m => removelast m | None => [] end else [].
(** src/commands.c:90-124: $*. *)
Fixpoint strip_suffix (name : str) (suffixes : list str) : str :=
  match suffixes with
  | [] => []
  | s :: suffixes' =>
      if (length s <? length name) && str_eqb s (skipn (length name - length s) name) then firstn (length name - length s) name
      else strip_suffix name suffixes'
  end.
Definition star_value (stem : option str) (name : str) (suffixes : list str) : str :=
  match stem with Some s => s | None => strip_suffix (shown name) suffixes end.
(** src/commands.c:126-140: $<. *)
Fixpoint less_value (ds : list adep) : str :=
  match ds with
  | [] => []
  | d :: ds' => if negb (a_order d) && negb (a_ignored d) then (if a_2nd d then [] else a_name d) else less_value ds'
  end.
Definition less_or_default (from_default : bool) (name : str) (ds : list adep) : str :=
  if from_default then at_value name else less_value ds.
