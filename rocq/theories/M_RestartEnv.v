(** The environment with which make is run again: src/main.c. *)
From Verif Require Import Base M_Text M_Ar.
Open Scope string_scope.
Open Scope list_scope.
Open Scope nat_scope.

Definition unsigned (z : Z) : Z := (z mod 2 ^ 32)%Z.
(** strneq (w, p, strlen (p)): what is behind [p]. *)
Fixpoint behind (p w : str) : option str :=
  match p, w with
  | [], _ => Some w
  | a :: p', b :: w' => if a =?c b then behind p' w' else None
  | _, [] => None
  end.
Definition k_level : str := s2l "MAKELEVEL=".
Definition k_restarts : str := s2l "MAKE_RESTARTS=".
(** src/main.c:1308-1333: restarts and OUTPUT_TRACED, from the words of the environment in their order (a word without an equals sign is
    ignored; the name is what is before the first one, so a word gives MAKE_RESTARTS if it begins with MAKE_RESTARTS=). *)
Definition read_restarts (s : Z * bool) (w : str) : Z * bool :=
  match behind k_restarts w with
  | None => s
  | Some v => match v with
              | c :: v' => if c =?c c_minus then (unsigned (atoi v'), true) else (unsigned (atoi v), snd s)
              | [] => (unsigned (atoi v), snd s)
              end
  end.
Definition restarts_of (env : list str) : Z * bool := fold_left read_restarts env (0%Z, false).

(** The word of MAKE_RESTARTS: src/main.c:2301-2303. *)
Definition restarts_word (traced : bool) (r : Z) : str := k_restarts ++ (if traced then [c_minus] else []) ++ show_lu r.
(** src/main.c:2290-2307: the loop over environ. *)
Fixpoint patch_env (level : Z) (traced : bool) (restarts : Z) (env : list str) : list str * Z :=
  match env with
  | [] => ([], restarts)
  | w :: env' =>
      match behind k_level w with
      | Some _ => let '(l, r) := patch_env level traced restarts env' in ((k_level ++ show_lu level) :: l, r)
      | None =>
          match behind k_restarts w with
          | Some _ => let '(l, r) := patch_env level traced 0 env' in (restarts_word traced restarts :: l, r)
          | None => let '(l, r) := patch_env level traced restarts env' in (w :: l, r)
          end
      end
  end.
(** src/main.c:2279, 2290-2316.  putenv is only called if there is no such word, so it adds one. *)
Definition next_env (level : Z) (traced : bool) (restarts : Z) (env : list str) : list str :=
  let r := unsigned (restarts + 1) in
  let '(l, r') := patch_env level traced r env in
  if (r' =? 0)%Z then l else l ++ [restarts_word traced r'].
