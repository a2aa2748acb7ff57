(** C40 and C49 as tests: S_Vpath as functions, and the model's answer compared with them. *)
From Verif Require Import Base S_Quote S_Text S_Vpath M_Vpath.
Open Scope list_scope.
Open Scope nat_scope.

Definition b_sep (c : ascii) : bool := (c =?c c_sp) || (c =?c c_tab) || (c =?c c_colon).
Fixpoint cut_pieces (cur s : str) : list str :=
  match s with
  | [] => flush cur
  | c :: s' => if b_sep c then flush cur ++ cut_pieces [] s' else cut_pieces (cur ++ [c]) s'
  end.
Definition one_dir (v : str) : list str :=
  if str_eqb v [c_slash] then [v]
  else let w := if last v c_nul =?c c_slash then removelast v else v in if str_eqb w [c_dot] then [] else [w].
Definition dirs_of (s : str) : list str := flat_map one_dir (cut_pieces [] s).
Fixpoint drop_spaces (s : str) : str := match s with c :: s' => if isspace c then drop_spaces s' else s | [] => [] end.
Fixpoint first_word (s : str) : str * str := match s with c :: s' => if isspace c then ([], s) else let (w, r) := first_word s' in (c :: w, r) | [] => ([], []) end.
Definition read_directive (t : str) : directive :=
  let (w, r) := first_word (drop_spaces t) in
  match w, drop_spaces r with [], _ => Clear | _, [] => Remove w | _, r' => Add w (dirs_of r') end.
Definition pat_eqb (a b : str * option str) : bool :=
  if str_eqb (fst a) (fst b) then match snd a, snd b with Some x, Some y => str_eqb x y | None, None => true | _, _ => false end else false.
Definition b_cancels (p : str) (d : directive) : bool := match d with Clear => true | Remove q => pat_eqb (pattern_of q) (pattern_of p) | Add _ _ => false end.
Fixpoint force (ds : list directive) : list ((str * option str) * list str) :=
  match ds with
  | [] => []
  | Add p es :: later => if match es with [] => true | _ => existsb (b_cancels p) later end then force later else (pattern_of p, es) :: force later
  | _ :: later => force later
  end.
Fixpoint prefix_of (p s : str) : bool := match p, s with [], _ => true | a :: p', b :: s' => (a =?c b) && prefix_of p' s' | _ :: _, [] => false end.
Definition b_match (p : str * option str) (w : str) : bool :=
  match p with
  | (pre, Some post) => (length pre + length post <=? length w) && prefix_of pre w && str_eqb (skipn (length w - length post) w) post
  | (lit, None) => str_eqb lit w
  end.
Fixpoint number_from {A} (k : nat) (l : list A) : list (nat * A) := match l with [] => [] | a :: l' => (k, a) :: number_from (S k) l' end.
(** The places in their order. *)
Definition places (L : list ((str * option str) * list str)) (G : list str) (file : str) : list (nat * nat * str) :=
  flat_map (fun x => if b_match (fst (snd x)) file then map (fun y => (fst x, fst y, snd y)) (number_from 0 (snd (snd x))) else []) (number_from 0 L)
  ++ map (fun y => (length L, fst y, snd y)) (number_from 0 G).
(** The part up to the last slash, and what follows. *)
Fixpoint at_last_slash (s : str) : option (str * str) :=
  match s with
  | [] => None
  | c :: s' => match at_last_slash s' with Some (a, b) => Some (c :: a, b) | None => if c =?c c_slash then Some ([], s') else None end
  end.
Section Accept.
  Variable lookup_file : str -> option (bool * option nat).
  Variable listed : str -> str -> bool.
  Variable stat : str -> option nat.
  Definition acceptance (file d : str) : option (option nat) :=
    let name := d ++ c_slash :: file in
    match lookup_file name with
    | Some (t, time) =>
        if t || negb (match lookup_file file with Some (true, _) => true | _ => false end) then Some time
        else let (dir, base) := match at_last_slash file with Some (x, f) => (d ++ c_slash :: x, f) | None => (d, file) end in
             if listed dir base then option_map Some (stat name) else None
    | None => let (dir, base) := match at_last_slash file with Some (x, f) => (d ++ c_slash :: x, f) | None => (d, file) end in
              if listed dir base then option_map Some (stat name) else None
    end.
  Definition otime_eqb (a b : option nat) : bool := match a, b with Some x, Some y => x =? y | None, None => true | _, _ => false end.
  Definition otime2_eqb (a b : option (option nat)) : bool := match a, b with Some x, Some y => otime_eqb x y | None, None => true | _, _ => false end.
  Fixpoint no_double (s : str) : bool := match s with c :: s' => negb ((c =?c c_slash) && match s' with d :: _ => d =?c c_slash | [] => false end) && no_double s' | [] => true end.
  Definition no_end (ds : list str) : bool := forallb (fun d => negb (last d c_nul =?c c_slash)) ds.
  Definition fit (L : list ((str * option str) * list str)) (G : list str) : bool :=
    forallb (fun x => match snd (fst x) with None => negb (existsb (fun c => c =?c c_percent) (fst (fst x))) | Some _ => true end && no_end (snd x)) L && no_end G.
  Definition absolute (file : str) : bool := match file with c :: _ => c =?c c_slash | [] => false end.
  Definition t_vpath (texts : list str) (value gvalue file : str) : bool :=
    let L := force (map read_directive texts) in
    let G := dirs_of value in
    let r := vpath_search nat lookup_file listed stat (build_vpath_lists (fold_left (fun l t => vpath_line t l) texts []) value gvalue) file in
    if absolute file then match r with Nothing _ => true | _ => false end
    else if fit L G && no_double file then
      match r with
      | Undefined _ => false
      | Nothing _ => forallb (fun x => match acceptance file (snd x) with None => true | Some _ => false end) (places L G file)
      | Found _ name tm vi pi =>
          existsb (fun x => (fst (fst x) =? vi) && (snd (fst x) =? pi) && str_eqb name (snd x ++ c_slash :: file) && otime2_eqb (acceptance file (snd x)) (Some tm)) (places L G file)
          && forallb (fun x => if (fst (fst x) <? vi) || ((fst (fst x) =? vi) && (snd (fst x) <? pi)) then match acceptance file (snd x) with None => true | Some _ => false end else true) (places L G file)
      end
    else true.
  Variable name_mtime : str -> option nat.
  Variable std : list str.
  Definition hits_for (L : list ((str * option str) * list str)) (G : list str) (x : str) : list (nat * nat * nat * (str * option nat)) :=
    (match name_mtime x with Some t => [(0, 0, 0, (x, Some t))] | None => [] end)
    ++ (if absolute x then [] else flat_map (fun y => match acceptance x (snd y) with Some tm => [(1, fst (fst y), snd (fst y), (snd y ++ c_slash :: x, tm))] | None => [] end) (places L G x))
    ++ flat_map (fun y => match name_mtime (snd y ++ c_slash :: x) with Some t => [(2, fst y, 0, (snd y ++ c_slash :: x, Some t))] | None => [] end) (number_from 0 std).
  Definition all_hits L G (lib : str) (pats : list str) : list (nat * nat * nat * nat * (str * option nat)) :=
    flat_map (fun p => match pattern_of (snd p) with
                       | (pre, Some post) => map (fun h => (fst h, fst p, snd h)) (hits_for L G (pre ++ lib ++ post))
                       | (_, None) => [] end) (number_from 0 pats).
  Definition b_le4 (x y : nat * nat * nat * nat) : bool :=
    let '(c, a, e, i) := x in let '(c', a', e', i') := y in
    (c <? c') || ((c =? c') && ((a <? a') || ((a =? a') && ((e <? e') || ((e =? e') && (i <=? i')))))).
  Definition t_library (uint_max : nat) (texts : list str) (value gvalue lib : str) (pats : list str) : bool :=
    let L := force (map read_directive texts) in
    let G := dirs_of value in
    if fit L G && (length L <? uint_max - length std) && forallb (fun p => match pattern_of p with (pre, Some post) => no_double (pre ++ lib ++ post) | _ => true end) pats then
      match library_search nat lookup_file listed stat name_mtime uint_max std (build_vpath_lists (fold_left (fun l t => vpath_line t l) texts []) value gvalue) lib pats with
      | None => false
      | Some None => match all_hits L G lib pats with [] => true | _ => false end
      | Some (Some (n, tm)) =>
          existsb (fun h => str_eqb (fst (snd h)) n && otime_eqb (snd (snd h)) tm && forallb (fun h' => b_le4 (fst h) (fst h')) (all_hits L G lib pats)) (all_hits L G lib pats)
      end
    else true.
End Accept.
Definition t_gpath (texts : list str) (value gvalue file : str) (len : nat) : bool :=
  if len <=? length file then
    Bool.eqb (gpath_search (build_vpath_lists (fold_left (fun l t => vpath_line t l) texts []) value gvalue) file len) (existsb (str_eqb (firstn len file)) (dirs_of gvalue))
  else true.
