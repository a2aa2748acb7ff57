(** Tests of what S_Symlink says, for a finite file system. *)
From Verif Require Import Base M_Symlink S_Symlink.
Open Scope list_scope.
Open Scope nat_scope.

(** The directory of a name with its slash, by reading it from the end. *)
Fixpoint upto (r : str) : str := match r with [] => [] | c :: r' => if c =?c "/" then r else upto r' end.
Definition join (p x : str) : str := match x with "/"%char :: _ => x | _ => rev (upto (rev p)) ++ x end.
Definition at_name (l : list (str * lstat_answer)) (p : str) : lstat_answer := match find (fun e => str_eqb (fst e) p) l with Some e => snd e | None => Absent end.
Definition shortb (l : list (str * lstat_answer)) (pmax : nat) : bool := forallb (fun e => match snd e with Link _ (Some x) => length x <? pmax | _ => true end) l.
Fixpoint linksb (n : nat) (l : list (str * lstat_answer)) (pmax : nat) (p : str) : option (list (str * nat)) :=
  match n with
  | 0 => None
  | S n' => match at_name l p with
            | Link t None => Some [(p, t)]
            | Link t (Some x) => let q := join p x in if pmax <=? length q then Some [(p, t)] else option_map (cons (p, t)) (linksb n' l pmax q)
            | _ => Some []
            end
  end.
Definition greatest (l : list nat) (m : nat) : nat := fold_right Nat.max m l.
Definition is_failed (a : stat_answer) : bool := match a with Failed => true | _ => false end.
Definition t_links (n : nat) (stat : str -> stat_answer) (l : list (str * lstat_answer)) (pmax : nat) (name : str) : bool :=
  (match name_time stat (at_name l) pmax n false name with Value m ms => (m =? own_time (stat name)) && (length ms =? (if is_failed (stat name) then 1 else 0)) | _ => false end) &&
  match name_time stat (at_name l) pmax n true name with
  | Overflow => false
  | Unfinished => negb (shortb l pmax) || match linksb n l pmax name with Some k => n <=? length k | None => true end
  | Value m ms =>
      if is_failed (stat name) then (m =? NOT_THERE) && (length ms =? 1)
      else if pmax <? length name then (m =? own_time (stat name)) && (length ms =? 0)
      else if shortb l pmax then match linksb n l pmax name with Some k => (m =? greatest (map snd k) (own_time (stat name))) && (length ms <=? 1) | None => true end
      else true
  end.
