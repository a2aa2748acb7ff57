(** The time of a file, and the name under which it is found: src/remake.c f_mtime, without members of archives. *)
From Verif Require Import Base M_Rename.
Open Scope string_scope.
Open Scope list_scope.
Open Scope nat_scope.

(** src/filedef.h:216-239.  NEW_MTIME is the largest number; here any that is given. *)
Definition UNKNOWN := 0.
Definition NONEXISTENT := 1.
Definition OLD := 2.
Definition with_mtime (f : file) (m : nat) : file := mkfile (f_hname f) (f_name f) (f_cmds f) (f_deps f) (f_vars f) (f_colon f) (f_prev f) (f_renamed f) m (f_before f) (f_builtin f) (f_flags f) (f_others f).
Definition not_intermediate (f : file) : file :=
  mkfile (f_hname f) (f_name f) (f_cmds f) (f_deps f) (f_vars f) (f_colon f) (f_prev f) (f_renamed f) (f_mtime f) (f_before f) (f_builtin f) (f_flags f)
         (mkothers (w_tracing (f_others f)) false (w_secondary (f_others f)) (w_dontcare (f_others f)) (w_status (f_others f))).
Definition updated (f : file) : bool := w_updated (f_flags f).

(** [Stopped]: what rehash_file says if there is no result (fatal, abort).  [Outside]: a byte outside of the string is read. *)
Inductive answer := Time (s : state) (m : nat) | Stopped (o : outcome) | Outside | NoEnd.
Section Mtime.
  Variable NEW : nat.
  (** src/remake.c:1513-1640. *)
  Variable name_mtime : str -> nat.
  (** vpath_search (C40), library_search (C49): the name, and the time or UNKNOWN. *)
  Variables (vpath_search library_search : str -> option (str * nat)).
  (** The directories of GPATH. *)
  Variable gpath : list str.
  (** command_state is cs_not_started. *)
  Variable not_started : nat -> bool.

  (** src/vpath.c:306-318 gpath_search, for a length that is not larger than that of the name. *)
  Definition gpath_search (name : str) (len : nat) : bool := existsb (fun g => str_eqb g (firstn len name)) gpath.
  (** src/remake.c:1478-1505. *)
  Definition store (m : nat) (p : bool) (h : nat -> file) (e : nat) : nat -> file :=
    let f := h e in
    let f := if negb (m =? NONEXISTENT) && not_started e && negb (w_tried (f_flags f)) && w_intermediate (f_others f) then not_intermediate f else f in
    let f := if Bool.eqb (updated f) p then with_mtime f m else f in
    put h e f.
  Definition finish (n : nat) (s : state) (i : nat) (m : nat) : answer :=
    let hd := match f_colon (heap s i) with Some d => d | None => i end in
    match entries n (heap s) (Some hd) with
    | None => NoEnd
    | Some es => Time (mkstate (fold_left (store m (updated (heap s hd))) es (heap s)) (table s)) m
    end.
  Definition dash_l (name : str) : bool := match name with a :: b :: _ => (a =?c "-") && (b =?c "l") | _ => false end.
  (** src/remake.c:1378-1424.  [k]: how often it calls itself by file_mtime. *)
  Fixpoint f_time (k n : nat) (s : state) (i : nat) (search : bool) : answer :=
    let name := f_name (heap s i) in
    let m := name_mtime name in
    if (m =? NONEXISTENT) && search && negb (w_ignore (f_flags (heap s i))) then
      match (match vpath_search name with Some r => Some r | None => if dash_l name then library_search name else None end) with
      | None => finish n s i m
      | Some (nm, t) =>
          let s1 := if t =? UNKNOWN then s else mkstate (put (heap s) i (with_mtime (heap s i) t)) (table s) in
          if length nm <=? length name then Outside
          else
            let l := length nm - length name in
            let l := match nth_error nm (l - 1) with Some c => if c =?c "/" then l - 1 else l | None => l end in
            if gpath_search nm l then
              match rename_file n s1 i nm with
              | Done s2 _ =>
                  match check_renamed n (heap s2) i, k with
                  | Some g, S k' => if f_mtime (heap s2 g) =? UNKNOWN then f_time k' n s2 g true else Time s2 (f_mtime (heap s2 g))
                  | _, _ => NoEnd
                  end
              | o => Stopped o
              end
            else
              match rehash_file n s1 i nm with
              | Done s2 _ =>
                  match check_renamed n (heap s2) i with
                  | Some g => finish n s2 g (if (t =? OLD) || (t =? NEW) then t else name_mtime nm)
                  | None => NoEnd
                  end
              | o => Stopped o
              end
      end
    else finish n s i m.
End Mtime.

(** src/remake.c:1432-1476: the warning about times in the future.  [clock]: what file_timestamp_now gives, and the resolution. *)
Record skew := mkskew { detected : bool; adjusted : nat }.
Definition look_at (NEW : nat) (k : skew) (clock : nat * nat) (m : nat) (upd : bool) : skew * bool :=
  if negb (detected k) && negb (m =? NONEXISTENT) && negb (m =? NEW) && negb upd then
    if adjusted k <? m then
      let a := fst clock + (snd clock - 1) in
      if a <? m then (mkskew true a, true) else (mkskew false a, false)
    else (k, false)
  else (k, false).
Fixpoint look_all (NEW : nat) (k : skew) (l : list (nat * nat * nat * bool)) : list bool :=
  match l with
  | [] => []
  | (now, res, m, u) :: l' => let '(k', w) := look_at NEW k (now, res) m u in w :: look_all NEW k' l'
  end.
