(** The time of a name, with -L: src/remake.c name_mtime. *)
From Verif Require Import Base.
Open Scope string_scope.
Open Scope list_scope.
Open Scope nat_scope.

(** What stat and lstat say.  [Missing], [Absent]: ENOENT or ENOTDIR.  The target of a link is [None] if readlink fails. *)
Inductive stat_answer := There (m : nat) | Missing | Failed.
Inductive lstat_answer := Absent | Bad | Ordinary | Link (m : nat) (target : option str).
Inductive call := c_stat | c_lstat | c_readlink.
(** The time, and the messages of perror_with_name.  [Overflow]: more is written to lpath than there is room.  [Unfinished]: no end within the steps. *)
Inductive result := Value (m : nat) (messages : list (call * str)) | Overflow | Unfinished.
(** src/filedef.h:221. *)
Definition NOT_THERE := 1.
(** strrchr (lpath, '/'). *)
Fixpoint last_slash (s : str) : option nat :=
  match s with
  | [] => None
  | c :: s' => match last_slash s' with Some k => Some (S k) | None => if c =?c "/" then Some 0 else None end
  end.
Section Symlink.
  Variable stat : str -> stat_answer.
  Variable lstat : str -> lstat_answer.
  (** GET_PATH_MAX; the buffers have one byte more (src/makeint.h:158-163). *)
  Variable pmax : nat.
  (** src/remake.c:1626-1636. *)
  Definition step (lpath lbuf : str) : option str :=
    match lbuf with
    | "/"%char :: _ => Some lbuf
    | _ => match last_slash lpath with
           | None => Some lbuf
           | Some p => if pmax <? p + length lbuf + 2 then None else Some (firstn (S p) lpath ++ lbuf)
           end
    end.
  (** src/remake.c:1590-1637. *)
  Fixpoint walk (n : nat) (lpath : str) (m : nat) : result :=
    match n with
    | 0 => Unfinished
    | S n' =>
        match lstat lpath with
        | Absent => Value m []
        | Bad => Value m [(c_lstat, lpath)]
        | Ordinary => Value m []
        | Link t target =>
            let m := if m <? t then t else m in
            match target with
            | None => Value m [(c_readlink, lpath)]
            | Some x => match step lpath (firstn pmax x) with
                        | None => Value m []
                        | Some p => if pmax <? length p then Overflow else walk n' p m
                        end
            end
        end
    end.
  (** src/remake.c:1516-1642; [check]: -L. *)
  Definition name_time (n : nat) (check : bool) (name : str) : result :=
    match stat name with
    | Failed => Value NOT_THERE [(c_stat, name)]
    | a => let m := match a with There m => m | _ => NOT_THERE end in
           if check && (length name <=? pmax) then walk n name m else Value m []
    end.
End Symlink.
