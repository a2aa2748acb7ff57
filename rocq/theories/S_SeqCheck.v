(** C58 as functions: the list that a text must give, from the specification alone. *)
From Verif Require Import Base S_Quote S_Seq M_Seq.
Open Scope string_scope.
Open Scope list_scope.
Open Scope nat_scope.

Fixpoint read_words (stop blank : ascii -> bool) (fuel : nat) (t : str) : option (list str * str) :=
  match fuel with
  | 0 => None
  | S fuel' =>
      match trim t with
      | [] => Some ([], [])
      | c :: r =>
          if stop c then Some ([], c :: r)
          else let (w, rest) := unq (fun x => stop x || blank x) 0 (c :: r) in
               match read_words stop blank fuel' (match rest with Some x => x | None => [] end) with Some (ws, e) => Some (w :: ws, e) | None => None end
      end
  end.
Definition b_closing (w : str) : bool := match w with [] => false | _ => last w c_nul =?c c_rparen end.
Fixpoint cut_paren (a s : str) : option (str * str) := match s with [] => None | c :: s' => if c =?c c_lparen then Some (a, s') else cut_paren (a ++ [c]) s' end.
Fixpoint to_closing (ws : list str) : option (list str * str * list str) :=
  match ws with
  | [] => None
  | w :: ws' => if b_closing w then Some ([], removelast w, ws') else match to_closing ws' with Some (ms, z, r) => Some (w :: ms, z, r) | None => None end
  end.
Definition in_archive (x m : str) : str := x ++ c_lparen :: m ++ [c_rparen].
Fixpoint group (fuel : nat) (ws : list str) : list str :=
  match fuel, ws with
  | S fuel', w :: ws' =>
      match cut_paren [] w with
      | Some (a :: lib, m) =>
          if b_closing w then w :: group fuel' ws'
          else match to_closing ws' with
               | Some (ms, z, r) => map (in_archive (a :: lib)) (filter nonempty (m :: ms ++ [z])) ++ group fuel' r
               | None => w :: group fuel' ws'
               end
      | _ => w :: group fuel' ws'
      end
  | _, _ => []
  end.
Definition b_wild (n : str) : bool := existsb (fun c => (c =?c "?") || (c =?c "*") || (c =?c "[")) n.
Definition b_files (exist : bool) (glob : str -> gres) (n : str) : list str :=
  if exist || b_wild n then match glob n with GFound l => l | GNoMatch => if exist then [] else [n] | GOther => [n] end else [n].
(** Positions that are not quoted. *)
Fixpoint unquoted (p : str) : list (ascii * str) :=
  match p with
  | [] => []
  | c :: p' => if c =?c c_bslash then match p' with [] => [] | _ :: p'' => unquoted p'' end else (c, p') :: unquoted p'
  end.
Definition b_special (p : str) : bool :=
  existsb (fun x => (fst x =?c "?") || (fst x =?c "*") || ((fst x =?c "[") && existsb (fun y => fst y =?c "]") (unquoted (snd x)))) (unquoted p).
Definition b_home (tilde : str -> option str) (n : str) : str := match n with c :: _ => if c =?c "~" then match tilde n with Some x => x | None => n end else n | [] => n end.
Definition b_stands (noar exist : bool) (tilde : str -> option str) (glob : str -> gres) (members : str -> str -> list str) (n : str) : option (list str) :=
  let n := b_home tilde n in
  match cut_paren [] n with
  | Some (a :: lib, m) =>
      if noar || negb (b_closing n) || (length m <=? 1) then Some (b_files exist glob n)
      else
        let m := removelast m in
        if match m with c :: e => (c =?c c_lparen) && b_closing e | [] => false end then None
        else Some (flat_map (fun x => match (if b_special m then members x m else []) with [] => [in_archive x m] | l => map (in_archive x) l end) (b_files exist glob (a :: lib)))
  | _ => Some (b_files exist glob n)
  end.
Fixpoint all_stand (f : str -> option (list str)) (ns : list str) : option (list str) :=
  match ns with [] => Some [] | n :: ns' => match f n, all_stand f ns' with Some l, Some l' => Some (l ++ l') | _, _ => None end end.
Fixpoint quoted_stop (stop : ascii -> bool) (s : str) : bool :=
  match s with c :: s' => ((c =?c c_bslash) && match s' with x :: _ => stop x | [] => false end) || quoted_stop stop s' | [] => false end.
Definition pre' (prefix : option str) (n : str) : str := match prefix with Some p => p ++ n | None => n end.
(** What parse_file_seq must give, if C58 says so. *)
Definition expected (stop : ascii -> bool) (oneword nostrip noar noglob exist nocache : bool) (prefix : option str) tilde glob members (text : str) : option outcome :=
  match read_words stop (fun c => negb oneword && isblank c) (S (length text)) text with
  | None => None
  | Some (ws, rest) =>
      let names := map (fun w => if nostrip then w else clean w) ws in
      let ns := if noar then names else group (length names) names in
      if quoted_stop stop text && existsb (fun w => existsb (fun c => c =?c c_lparen) w) ws then None
      else if noglob then Some (Names (map (pre' prefix) ns) rest)
      else if noar || (negb nocache && match prefix with None => true | Some _ => false end) then
        Some (match all_stand (b_stands noar exist tilde glob members) ns with Some l => Names (map (pre' prefix) l) rest | None => Fatal end)
      else None
  end.
Fixpoint list_eqb (a b : list str) : bool := match a, b with [], [] => true | x :: a', y :: b' => str_eqb x y && list_eqb a' b' | _, _ => false end.
Definition outcome_eqb (a b : outcome) : bool := match a, b with Names l r, Names l' r' => list_eqb l l' && str_eqb r r' | Overrun, Overrun | Fatal, Fatal | NoFuel, NoFuel => true | _, _ => false end.
Definition t_seq stop oneword nostrip noar noglob exist nocache prefix tilde glob members text : bool :=
  match expected stop oneword nostrip noar noglob exist nocache prefix tilde glob members text with
  | Some o => outcome_eqb (parse_file_seq stop oneword nostrip noar noglob exist nocache prefix tilde glob members text) o
  | None => match parse_file_seq stop oneword nostrip noar noglob exist nocache prefix tilde glob members text with Overrun | NoFuel => false | _ => true end
  end.

(** The prerequisites of a rule. *)
Definition pair_eqb (a b : list str * list str) : bool := list_eqb (fst a) (fst b) && list_eqb (snd a) (snd b).
Definition want_list (stop : ascii -> bool) tilde glob members text := expected stop false false false false false false None tilde glob members text.
Definition want_prereqs tilde glob members (text : str) : option (list str * list str) :=
  match want_list (fun c => c =?c c_pipe) tilde glob members text with
  | Some (Names l []) => Some (l, [])
  | Some (Names l (_ :: r)) => match want_list (fun _ => false) tilde glob members r with Some (Names l' []) => Some (l, l') | _ => None end
  | _ => None
  end.
Definition t_prereqs tilde glob members (text : str) : bool :=
  if quoted_stop (fun c => c =?c c_pipe) text then true else
  match want_prereqs tilde glob members text with
  | Some x => match split_prereqs tilde glob members text with Some y => pair_eqb x y | None => false end
  | None => true
  end.
(** $(wildcard). *)
Fixpoint spaced (l : list str) : str := match l with [] => [] | [a] => a | a :: l' => a ++ c_sp :: spaced l' end.
Definition t_wildcard tilde glob members (text : str) : bool :=
  match read_words (fun _ => false) isblank (S (length text)) text with
  | Some (ws, []) =>
      if existsb (fun w => existsb (fun c => c =?c c_lparen) w || match w with c :: _ => c =?c "~" | [] => false end) ws then true
      else match string_glob tilde glob members text with
           | Some x => str_eqb x (spaced (flat_map (fun w => match glob w with GFound l => l | GNoMatch => [] | GOther => [w] end) ws))
           | None => false
           end
  | _ => true
  end.
