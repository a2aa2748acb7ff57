(** Descriptions of targets: the comments [#: text] and their lists. *)
From Verif Require Import Base M_Quote.
From Verif Require M_Debugger.
Open Scope string_scope.
Open Scope list_scope.
Open Scope nat_scope.

(** What eval does that matters here, in order.  A line [n] that is not a recipe line is [Text line n]
    (read.c:745-751, with its continuations already joined, also if a conditional leaves it out); a statement
    that ends the waiting rule adds [Ends] (lines 774, 839, 876, 909, 932, 965, 1041); a rule line [n] adds
    [Ends], what its expansion evaluates, and [Targets names n] (1041-1042, 1183).  Reading another makefile
    or text, by include or $(eval), is [Open], its events, [Close]. *)
Inductive event :=
| Text (line : str) (n : nat)
| Ends
| Targets (names : list str) (n : nat)
| Open
| Close.

(** src/read.c:565, 594-596: the static variables, and for each eval in progress the local variables
    filenames and tgts_started; [out]: the calls of record_files, names and description. *)
Record st := mkst { td : option str; pd : option str; tdl : nat; frames : list (option (list str * nat)); out : list (list str * option str) }.

(** src/read.c:1437-1456 remove_comments, the part about descriptions. *)
Definition is_hash (c : ascii) : bool := c =?c "#".
Definition descr (comment : str) : option str :=
  match comment with
  | a :: b :: c :: t => if (a =?c "#") && (b =?c c_colon) && (c =?c c_sp) then Some t else None
  | _ => None
  end.
Definition remove_comments (line : str) (n : nat) (s : st) : option st :=
  match find_map_unquote is_hash true line with
  | None => None
  | Some f =>
      match f_rest f with
      | None => Some s
      | Some c => match descr c with None => Some s | Some d => Some (mkst (Some d) (td s) n (frames s) (out s)) end
      end
  end.
(** src/read.c:612-637 record_waiting_files. *)
Definition record_waiting (s : st) : st :=
  match frames s with
  | Some (names, ts) :: r =>
      let late := ts <? tdl s in
      mkst (if late then td s else None) (if late then None else pd s) (tdl s) (None :: r)
           (out s ++ [(names, if late then pd s else td s)])
  | _ => s
  end.
Definition step (s : st) (e : event) : option st :=
  match e with
  | Text line n => remove_comments line n s
  | Ends => Some (record_waiting s)
  | Targets names n =>
      match frames s with
      | _ :: r => Some (mkst (td s) (pd s) (tdl s) (match names with [] => None | _ => Some (names, n) end :: r) (out s))
      | [] => None
      end
  (** src/read.c:654-656. *)
  | Open => Some (mkst None None (tdl s) (None :: frames s) (out s))
  (** src/read.c:1424-1425. *)
  | Close => let s' := record_waiting s in match frames s' with _ :: r => Some (mkst (td s') (pd s') (tdl s') r (out s')) | [] => None end
  end.
Fixpoint steps (s : st) (l : list event) : option st :=
  match l with [] => Some s | e :: l' => match step s e with Some s' => steps s' l' | None => None end end.
(** One makefile; [k]: what earlier makefiles left in target_description_lineno. *)
Definition eval (k : nat) (l : list event) : option (list (list str * option str)) :=
  option_map out (steps (mkst None None k [] []) (Open :: l ++ [Close])).

(** src/read.c:2145: the description of a target of single-colon rules after these calls. *)
Definition description (t : str) (l : list (list str * option str)) : option str :=
  fold_left (fun d x => if existsb (str_eqb t) (fst x) then snd x else d) l None.

(** libdebugger/command/info.c:205-217 dbg_cmd_info_tasks: [files] are the live slots of the hash table
    (C01), [qsort] is the C library's with dbg_target_compare (180-186). *)
Definition pad20 (s : str) : str := s ++ repeat c_sp (20 - length s).
Section Tasks.
  Variable qsort : list (str * option str) -> list (str * option str).
  Definition info_tasks (files : list (str * option str)) : list str :=
    flat_map (fun f => match snd f with Some d => [pad20 (fst f) ++ c_sp :: d] | None => [] end) (qsort files).
End Tasks.
