(** Tests for what S_Implicit claims, by enumeration: nothing here uses how the model matches and orders the rules. *)
From Verif Require Import Base M_Implicit S_Implicit S_Timely.
Open Scope list_scope.
Open Scope nat_scope.

Definition b_in (n : str) (l : list str) : bool := existsb (str_eqb n) l.
Fixpoint strs_eqb (a b : list str) : bool :=
  match a, b with [], [] => true | x :: a', y :: b' => str_eqb x y && strs_eqb a' b' | _, _ => false end.
Fixpoint marks_eqb (a b : list (str * bool)) : bool :=
  match a, b with [], [] => true | (x, o) :: a', (y, u) :: b' => str_eqb x y && Bool.eqb o u && marks_eqb a' b' | _, _ => false end.
Definition b_char (x : ascii) (s : str) : bool := existsb (fun c => c =?c x) s.

(** lib(member). *)
Definition b_member (n : str) : bool :=
  existsb (fun k => match skipn k n with
                    | c :: m => (c =?c c_lparen) && negb (b_char c_lparen (firstn k n)) && (2 <=? length m) && (last m c_nul =?c c_rparen)
                    | [] => false
                    end) (seq 1 (length n)).
(** The directory and the rest. *)
Definition parts_list (whole : bool) (n : str) : list (str * str) :=
  if whole || negb (b_char c_slash (removelast n)) then [([], n)]
  else flat_map (fun k => match skipn k n with
                          | c :: b => if (c =?c c_slash) && negb (str_eqb b []) && negb (b_char c_slash (removelast b)) then [(firstn k n ++ [c_slash], b)] else []
                          | [] => []
                          end) (seq 0 (length n)).
Definition pattern_list (t : str * nat) : list (str * str) :=
  match skipn (snd t) (fst t) with c :: suf => if c =?c c_percent then [(firstn (snd t) (fst t), suf)] else [] | [] => [] end.
(** What stands between a prefix and a suffix. *)
Definition between (pre suf n : str) : list str :=
  let st := firstn (length n - length pre - length suf) (skipn (length pre) n) in if str_eqb (pre ++ st ++ suf) n then [st] else [].
Definition fits_list (archive : bool) (name : str) (t : str * nat) : list (str * str) :=
  flat_map (fun db : str * str => let (dir, base) := db in
    flat_map (fun ps : str * str => let (pre, suf) := ps in
      if negb (str_eqb dir []) && negb (b_char c_slash (fst t)) then map (fun st => (dir, st)) (between pre suf base)
      else map (fun st => ([], st)) (filter (fun st => negb (str_eqb st [])) (between pre suf name))) (pattern_list t))
    (parts_list (archive || b_member name) name).
(** A prerequisite with the stem put in. *)
Fixpoint b_instance (prefix st done n : str) : str :=
  match n with
  | [] => done
  | c :: n' => if c =?c c_percent then prefix ++ done ++ st ++ n' else b_instance prefix st (done ++ [c]) n'
  end.
Definition b_anything (t : str * nat) : bool := str_eqb (fst t) [c_percent].

Record entry := mkent { e_i : nat; e_ti : nat; e_r : rule; e_p : str; e_s : str }.
Definition e_len (e : entry) : nat := length (e_p e ++ e_s e).
Definition b_sooner (a b : entry) : bool :=
  (e_len a <? e_len b) || ((e_len a =? e_len b) && ((e_i a <? e_i b) || ((e_i a =? e_i b) && (e_ti a <? e_ti b)))).
Fixpoint mention_list (p : plan) : list str :=
  match p with
  | Plan _ _ _ deps also =>
      (fix go (l : list (str * bool * option plan)) : list str :=
         match l with [] => [] | (n, _, None) :: l' => n :: go l' | (n, _, Some q) :: l' => n :: mention_list q ++ go l' end) deps ++ also
  end.

Section Check.
  Variable rules : list rule.
  Variable path_max : nat.
  Variable parse : str -> list str.
  Variable lookup exists_p : str -> bool.
  Variable vpath : list str -> str -> bool.

  Definition b_had (files expl : list str) (n : str) : bool := b_in n expl || lookup n || b_in n files || exists_p n || vpath files n.
  Definition rule_candidates (recursing archive : bool) (name : str) (i : nat) (r : rule) : list (entry * (str * nat)) :=
    flat_map (fun ti => match nth_error (r_targets r) ti with
                        | Some t => if recursing && b_anything t && negb (r_terminal r) then []
                                    else map (fun ps => (mkent i ti r (fst ps) (snd ps), t)) (fits_list archive name t)
                        | None => []
                        end) (seq 0 (length (r_targets r))).
  Definition all_candidates (in_use : list nat) (recursing archive : bool) (name : str) : list (entry * (str * nat)) :=
    flat_map (fun i => match nth_error rules i with
                       | Some r => if existsb (Nat.eqb i) in_use then []
                                   else match r_deps r, r_cmds r with _ :: _, None => [] | _, _ => rule_candidates recursing archive name i r end
                       | None => []
                       end) (seq 0 (length rules)).
  Definition b_specific (in_use : list nat) (recursing archive : bool) (name : str) : bool :=
    existsb (fun et => negb (b_anything (snd et))) (all_candidates in_use recursing archive name).
  Definition all_eligible (in_use : list nat) (recursing archive : bool) (name : str) : list entry :=
    let sp := b_specific in_use recursing archive name in
    filter (fun e => match r_cmds (e_r e) with Some _ => true | None => false end &&
                     (negb sp || r_terminal (e_r e) || negb (existsb b_anything (r_targets (e_r e)))))
           (map fst (all_candidates in_use recursing archive name)).
  Definition need_list (e : entry) : list (str * bool) :=
    flat_map (fun d => map (fun n => (n, pd_order d)) (parse (b_instance (e_p e) (e_s e) [] (pd_name d)))) (r_deps (e_r e)).
  Definition b_direct (avail impossible : str -> bool) (e : entry) : bool :=
    (e_len e <=? path_max) && forallb (fun nb => negb (impossible (fst nb)) && avail (fst nb)) (need_list e).
  Fixpoint other_list (stem : str) (ti k : nat) (ts : list (str * nat)) : list str :=
    match ts with
    | [] => []
    | t :: ts' => (if k =? ti then [] else map (fun ps => fst ps ++ stem ++ snd ps) (pattern_list t)) ++ other_list stem ti (S k) ts'
    end.
  Fixpoint b_sound (avail : list str -> str -> bool) (in_use : list nat) (recursing archive : bool) (name : str) (expl : list str) (p : plan) : bool :=
    match p with
    | Plan i ti stem deps also =>
        existsb (fun e =>
          (e_i e =? i) && (e_ti e =? ti) && str_eqb (e_p e ++ e_s e) stem && (e_len e <=? path_max) &&
          strs_eqb also (other_list stem ti 0 (r_targets (e_r e))) &&
          match r_deps (e_r e) with
          | [] => true
          | _ =>
              marks_eqb (map fst deps) (need_list e) &&
              (fix go (l : list (str * bool * option plan)) : bool :=
                 match l with
                 | [] => true
                 | (n, _, None) :: l' => avail expl n && go l'
                 | (n, _, Some q) :: l' => negb (r_terminal (e_r e)) && b_sound avail (i :: in_use) true false n [] q && go l'
                 end) deps
          end) (all_eligible in_use recursing archive name)
    end.

  (** C30_choice. *)
  Definition t_choice (arch : bool) (name : str) (expl : list str) (s s' : sstate) (i ti : nat) (stem : str) : bool :=
    let el := all_eligible [] false arch name in
    let applies := b_direct (b_had (s_files s) expl) (fun n => b_in n (s_impossible s)) in
    existsb (fun e =>
      (e_i e =? i) && (e_ti e =? ti) && str_eqb (e_p e ++ e_s e) stem && (e_len e <=? path_max) &&
      ((applies e && forallb (fun e' => negb (b_sooner e' e && applies e')) el) ||
       (forallb (fun e' => negb (applies e')) el && negb (r_terminal (e_r e)) &&
        forallb (fun e' => negb ((e_len e' <=? path_max) && negb (r_terminal (e_r e')) && b_sooner e' e) ||
                           existsb (fun nb => b_in (fst nb) (s_impossible s')) (need_list e')) el))) el.
  (** C30_nothing. *)
  Definition t_nothing (arch : bool) (name : str) (expl : list str) (s s' : sstate) : bool :=
    forallb (fun e => negb (e_len e <=? path_max) ||
      (existsb (fun nb => b_in (fst nb) (s_impossible s) || negb (b_had (s_files s) expl (fst nb))) (need_list e) &&
       (r_terminal (e_r e) || existsb (fun nb => b_in (fst nb) (s_impossible s')) (need_list e)))) (all_eligible [] false arch name).
  (** C30_plan: what could be had at some time. *)
  Definition b_sometime (files expl : list str) (n : str) : bool := existsb (fun k => b_had (firstn k files) expl n) (seq 0 (S (length files))).
  (** All of C30 that one search can show. *)
  Definition t_search (arch : bool) (name : str) (expl : list str) (s : sstate) : bool :=
    match pattern_search rules path_max parse lookup exists_p vpath (S (length rules)) [] false arch name expl s with
    | None => false
    | Some (s', None) => t_nothing arch name expl s s'
    | Some (s', Some p) =>
        match p with Plan i ti stem _ _ => t_choice arch name expl s s' i ti stem end &&
        b_sound (b_sometime (s_files s')) [] false arch name expl p &&
        forallb (fun n => b_in n (s_files s')) (s_files s ++ mention_list p)
    end.
  (** Names that can be made, to a certain depth. *)
  Fixpoint b_makeable (depth : nat) (avail : str -> bool) (recursing archive : bool) (name : str) : bool :=
    existsb (fun e => b_direct avail (fun _ => false) e ||
                      (negb (r_terminal (e_r e)) && (e_len e <=? path_max) &&
                       match depth with
                       | 0 => false
                       | S depth' => forallb (fun nb => avail (fst nb) || b_makeable depth' avail true false (fst nb)) (need_list e)
                       end)) (all_eligible [] recursing archive name).
End Check.

(** Rules with one target, [%] and a text after it, and prerequisites of the same form. *)
Definition after_percent (s : str) : option str :=
  match s with c :: s' => if (c =?c c_percent) && negb (b_char c_percent s') then Some s' else None | [] => None end.
Definition ends_with (x s : str) : bool := str_eqb (skipn (length s - length x) s) x.
(** A prerequisite of the rule [i] fits the rule [j] only if [j] has the lower rank; rank of the rule [i]: [length rules - i].  Terminal rules do not count. *)
Definition tame (rules : list rule) : bool :=
  forallb (fun i => match nth_error rules i with
    | Some r =>
        match r_targets r with
        | [(t, 0)] => match after_percent t with Some _ => true | None => false end
        | _ => false
        end &&
        (r_terminal r || forallb (fun d => match after_percent (pd_name d) with
          | Some x =>
              forallb (fun j => match nth_error rules j with
                | Some r' => match r_targets r' with
                             | (t', _) :: _ => r_terminal r' || (i <? j) || negb (ends_with (tl t') x || ends_with x (tl t'))
                             | [] => true
                             end
                | None => true
                end) (seq 0 (length rules))
          | None => false
          end) (r_deps r))
    | None => true
    end) (seq 0 (length rules)).
Definition t_complete (rules : list rule) (path_max : nat) (exists_p : str -> bool) (files : list str) (name : str) : bool :=
  negb (tame rules && b_makeable rules path_max (fun x => [x]) (length rules) (fun n => b_in n files || exists_p n) false false name) ||
  match pattern_search rules path_max (fun x => [x]) (fun _ => false) exists_p (fun _ _ => false) (S (length rules)) [] false false name [] (mkst files []) with
  | Some (_, None) => false
  | _ => true
  end.

(** The first that holds; the tests behind it are not computed. *)
Fixpoint some {A} (f : A -> bool) (l : list A) : bool := match l with [] => false | a :: l' => if f a then true else some f l' end.
Fixpoint every {A} (f : A -> bool) (l : list A) : bool := match l with [] => true | a :: l' => if f a then every f l' else false end.
(** The tables between two. *)
Definition tables (F G : list str) : list (list str) := map (fun k => firstn k G) (seq (length F) (S (length G) - length F)).
Fixpoint b_timely (rules : list rule) (lookup exists_p : str -> bool) (vpath : list str -> str -> bool) (depth : nat) (top : bool) (F expl : list str) (p : plan) (G : list str) : bool :=
  match depth, p with
  | S depth', Plan i ti stem deps also =>
      some (fun mid =>
        let added := skipn (length mid) G in
        if every (fun n => b_in n (mention_list p)) added then
        if every (fun n => b_in n added) also then
        if every (fun d => match d with (n, _, Some q) => if b_in n added then every (fun x => b_in (fst (fst x)) added) (deps_of q) else false | (_, _, None) => true end) deps then
        if (if top then every (fun d => b_in (fst (fst d)) added) deps else true) then
        if match nth_error rules i with Some r => match r_deps r with [] => true | _ => false end | None => true end then true
        else every (fun d => match d with
          | (n, _, None) => some (fun f => b_had lookup exists_p vpath f expl n) (tables F mid)
          | (n, _, Some q) => some (fun f => if b_had lookup exists_p vpath f expl n then false else some (fun g => b_timely rules lookup exists_p vpath depth' false f [] q g) (tables f mid)) (tables F mid)
          end) deps
        else false else false else false else false) (tables F G)
  | _, _ => true
  end.
Definition t_timely rules path_max parse lookup exists_p vpath depth arch name expl s : bool :=
  match pattern_search rules path_max parse lookup exists_p vpath (S (length rules)) [] false arch name expl s with
  | Some (s', Some p) => b_timely rules lookup exists_p vpath depth true (s_files s) expl p (s_files s')
  | _ => true
  end.

(** C31. *)
Definition names_eqb (a b : rule) : bool := strs_eqb (map fst (r_targets a)) (map fst (r_targets b)) && strs_eqb (map pd_name (r_deps a)) (map pd_name (r_deps b)).
Definition b_survives (defs : list (rule * bool)) (j : nat) : bool :=
  match nth_error defs j with
  | None => false
  | Some (r, o) =>
      forallb (fun k => match nth_error defs k with
        | Some (r', o') =>
            negb (names_eqb r' r) ||
            (if o then negb ((j <? k) && o') else negb o' && negb (k <? j))
        | None => true
        end) (filter (fun k => negb (k =? j)) (seq 0 (length defs)))
  end.
Fixpoint survivors (defs : list (rule * bool)) (js : list nat) : list rule :=
  match js with [] => [] | j :: js' => match nth_error defs j with Some (r, _) => if b_survives defs j then [r] else [] | None => [] end ++ survivors defs js' end.
Definition t_definitions (defs : list (rule * bool)) : Prop :=
  fold_left (fun l d => new_pattern_rule (fst d) (snd d) l) defs [] = survivors defs (seq 0 (length defs)).

(** C50. *)
Definition meaning_list (files : str -> option (option nat * bool)) (posix : bool) (suffixes : list str) : list rule :=
  map (fun d => mkrule [(c_percent :: d, 0)] [] None false) suffixes ++
  flat_map (fun d => match files d with Some (Some c, _) => [mkrule [([c_percent], 0)] [mkpdep (c_percent :: d) false] (Some c) false] | _ => [] end) suffixes ++
  flat_map (fun d => flat_map (fun d2 =>
    if str_eqb d d2 then []
    else match files (d ++ d2) with
         | Some (Some c, deps) =>
             if deps && posix then []
             else mkrule [(c_percent :: d2, 0)] [mkpdep (c_percent :: d) false] (Some c) false ::
                  (if str_eqb d2 (s2l ".a"%string) then [mkrule [(s2l "(%.o)"%string, 1)] [mkpdep (c_percent :: d) false] (Some c) false] else [])
         | _ => []
         end) suffixes) suffixes.
Definition b_same_rule (r old : rule) : bool :=
  match r_targets r with
  | [t] => forallb (fun u => str_eqb (fst u) (fst t)) (r_targets old) && strs_eqb (map pd_name (r_deps old)) (map pd_name (r_deps r))
  | _ => false
  end.
Definition rule_dec (a b : rule) : {a = b} + {a <> b}.
Proof. repeat decide equality. Defined.
Definition b_rule (r : rule) (l : list rule) : bool := existsb (fun o => if rule_dec r o then true else false) l.
Fixpoint b_nodup (l : list rule) : bool := match l with [] => true | r :: l' => negb (b_rule r l') && b_nodup l' end.
Definition t_suffixes (files : str -> option (option nat * bool)) (posix : bool) (suffixes : list str) (l : list rule) : bool :=
  let res := convert_to_pattern files posix suffixes l in
  let extra := skipn (length l) res in
  (if list_eq_dec rule_dec (firstn (length l) res) l then true else false) && b_nodup extra &&
  forallb (fun r => b_rule r (meaning_list files posix suffixes) && negb (existsb (b_same_rule r) l)) extra &&
  forallb (fun r => existsb (b_same_rule r) l || b_rule r extra) (meaning_list files posix suffixes).
