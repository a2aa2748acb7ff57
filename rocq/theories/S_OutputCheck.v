(** C65 as tests: what the theorems say of one run, decided by trying every division. *)
From Verif Require Import Base M_Output S_Output.
Open Scope list_scope.
Open Scope nat_scope.

Definition event_kid (e : event) : option nat :=
  match e with New c | Start c _ | Say c _ _ | Run c | Write c _ _ | Exit c | Next c | Finish c => Some c | _ => None end.
Definition is_for (m c : nat) (x : nat * event) : bool := (fst x =? m) && match event_kid (snd x) with Some c' => c' =? c | None => false end.
Definition finished (es : list (nat * event)) (m c : nat) : bool := existsb (fun x => is_for m c x && match snd x with Finish _ => true | _ => false end) es.
Definition recursive (es : list (nat * event)) (m c : nat) : bool := existsb (fun x => is_for m c x && match snd x with Start _ r => r | _ => false end) es.
Definition has_quit (es : list (nat * event)) (m : nat) : bool := existsb (fun x => (fst x =? m) && match snd x with Quit => true | _ => false end) es.
Definition locksb (es : list (nat * event)) : bool := forallb (fun x => match snd x with Acquire false => false | _ => true end) es.
Definition dumping (st : state) (m : nat) : bool := match m_task (s_makes st m) with None => false | Some _ => true end.
Definition held_backb (cfg : config) (es : list (nat * event)) (m c : nat) : bool :=
  match c_mode cfg with M_recurse => true | M_target => negb (recursive es m c) | _ => false end.
Fixpoint prefixes (a b : str) : bool :=
  match a, b with [], _ => true | x :: a', y :: b' => (x =?c y) && prefixes a' b' | _, _ => false end.
Definition both (f : bool -> bool) : bool := f false && f true.

Definition t_prefix (cfg : config) (es : list (nat * event)) (st : state) (m c : nat) : bool :=
  both (fun d => prefixes (bytes (c_same cfg) d (shown (s_term st) m c)) (bytes (c_same cfg) d (said es m c))).
Definition same_bytes (cfg : config) (a b : list (bool * str)) : bool := both (fun d => str_eqb (bytes (c_same cfg) d a) (bytes (c_same cfg) d b)).
Definition t_complete (cfg : config) (es : list (nat * event)) (st : state) (m c : nat) : bool :=
  if finished es m c && negb (dumping st m) then same_bytes cfg (shown (s_term st) m c) (said es m c) else true.

(** Was the last line that was started one that runs another make? *)
Fixpoint last_recursive (es : list (nat * event)) (m c : nat) : bool :=
  match es with
  | [] => false
  | (m', Start c' r) :: l => if (m' =? m) && (c' =? c) then if existsb (fun x => is_for m c x && match snd x with Start _ _ => true | _ => false end) l then last_recursive l m c else r
                             else last_recursive l m c
  | _ :: l => last_recursive l m c
  end.
Definition t_direct (cfg : config) (es : list (nat * event)) (st : state) (m c : nat) : bool :=
  match c_mode cfg with
  | M_recurse => true
  | _ => if last_recursive es m c && negb (dumping st m) then same_bytes cfg (shown (s_term st) m c) (said es m c) else true
  end.

Definition t_line (cfg : config) (es : list (nat * event)) (st : state) (m c : nat) : bool :=
  match c_mode cfg with
  | M_line => if dumping st m then true else
      forallb (fun n => match nth_error es n with
                        | Some (m', Next c') => if (m' =? m) && (c' =? c)
                            then both (fun d => prefixes (bytes (c_same cfg) d (said (firstn n es) m c)) (bytes (c_same cfg) d (shown (s_term st) m c)))
                            else true
                        | _ => true
                        end) (seq 0 (length es))
  | _ => true
  end.

(** * Blocks *)
Definition plain (m : nat) (w : what) (e : entry) : bool :=
  (e_make e =? m) && match e_kid e with None => true | Some _ => false end && e_dump e
  && match w, e_what e with Enter, Enter | Leave, Leave => true | _, _ => false end.
(** Texts for stdout, then texts for stderr. *)
Fixpoint body (m c : nat) (err : bool) (l : list entry) : bool :=
  match l with
  | [] => true
  | e :: l' => of_kid m c e && e_dump e && match e_what e with Text d _ => (d || negb err) && body m c d l' | _ => false end
  end.
Fixpoint body_end (m c : nat) (err : bool) (l : list entry) : bool :=
  match l with
  | [] => false
  | [e] => plain m Leave e
  | e :: l' => of_kid m c e && e_dump e && match e_what e with Text d _ => (d || negb err) && body_end m c d l' | _ => false end
  end.
Definition blockb (dir : bool) (m c : nat) (l : list entry) : bool :=
  if dir then match l with e :: l' => plain m Enter e && (2 <=? length l') && body_end m c false l' | [] => false end
  else match l with [] => false | _ => body m c false l end.
Definition some_block (dir : bool) (m : nat) (cs : list nat) (l : list entry) : bool := existsb (fun c => blockb dir m c l) cs.
Fixpoint dumpsb (dir : bool) (cs : list nat) (ms : list nat) (l : list entry) : bool :=
  match ms with
  | [] => match l with [] => true | _ => false end
  | m :: ms' => existsb (fun n => some_block dir m cs (firstn n l) && dumpsb dir cs ms' (skipn n l)) (seq 0 (S (length l)))
  end.
Definition kids_in (l : list entry) : list nat := flat_map (fun e => match e_kid e with Some c => [c] | None => [] end) l.
Definition t_blocks (cfg : config) (es : list (nat * event)) (st : state) : bool :=
  if locksb es && forallb (fun x => negb (dumping st (fst x))) es
  then let l := filter e_dump (s_term st) in dumpsb (directory cfg) (nodup Nat.eq_dec (kids_in l)) (releases es) l else true.

Definition t_held (cfg : config) (es : list (nat * event)) (st : state) (m c : nat) : bool :=
  if held_backb cfg es m c && locksb es && negb (finished es m c) then forallb (fun e => negb (of_kid m c e)) (s_term st) else true.
Definition t_one_block (cfg : config) (es : list (nat * event)) (st : state) (m c : nat) : bool :=
  if held_backb cfg es m c && locksb es && finished es m c && negb (dumping st m)
     && negb (match said es m c with [] => true | _ => false end) && forallb (fun x => match snd x with [] => false | _ => true end) (said es m c)
  then
    let T := filter e_dump (s_term st) in
    forallb (fun e => if of_kid m c e then e_dump e else true) (s_term st) &&
    existsb (fun n => let l := firstn n T in let T' := skipn n T in forallb (fun e => negb (of_kid m c e)) l &&
      existsb (fun k => let b := firstn k T' in let r := skipn k T' in
                 forallb (fun e => negb (of_kid m c e)) r && blockb (directory cfg) m c b && same_bytes cfg (shown b m c) (said es m c))
              (seq 0 (S (length T'))))
      (seq 0 (S (length T)))
  else true.

(** * Directories *)
Definition is_enter (e : entry) : bool := match e_what e with Enter => true | _ => false end.
Definition is_leave (e : entry) : bool := match e_what e with Leave => true | _ => false end.
Definition t_entering (cfg : config) (es : list (nat * event)) (st : state) (m : nat) : bool :=
  match c_mode cfg with
  | M_none | M_recurse =>
      if c_print cfg then
        match made m (s_term st) with
        | [] => true
        | e :: ts => is_enter e && negb (e_dump e) && match e_kid e with None => true | Some _ => false end && forallb (fun x => negb (is_enter x)) ts && Bool.eqb (existsb is_leave ts) (has_quit es m)
        end
      else true
  | _ => true
  end.
Definition t_where (cfg : config) (st : state) : bool :=
  forallb (fun e => if is_enter e || is_leave e
                    then c_print cfg && Bool.eqb (e_dump e) (match c_mode cfg with M_line | M_target => true | _ => false end) else true) (s_term st).

(** * What can happen next *)
Definition rests (p : phase) : bool := match p with Rest _ => true | _ => false end.
Definition mayb (es : list (nat * event)) (m : nat) (e : event) : bool :=
  match e with
  | New c => match phase_of es m c with Unborn => negb (has_quit es m) | _ => false end
  | Start c _ | Next c | Finish c => rests (phase_of es m c) && negb (has_quit es m)
  | Say c _ t => rests (phase_of es m c) && negb (has_quit es m) && match t with [] => false | _ => true end
  | Run c => match phase_of es m c with Rest true => negb (has_quit es m) | _ => false end
  | Write c _ _ | Exit c => match phase_of es m c with Running => true | _ => false end
  | Quit => negb (has_quit es m)
  | Acquire _ | Pump | Release => false
  end.
Definition can (cfg : config) (st : state) (m : nat) (e : event) : bool := match step cfg st m e with Some _ => true | None => false end.
Definition t_next (cfg : config) (es : list (nat * event)) (st : state) (m : nat) (e : event) : bool :=
  if of_dump e then true else Bool.eqb (can cfg st m e) (mayb es m e && (of_command e || negb (dumping st m))).
(** A make that is inside output_dump can go on, or another one that has the lock. *)
Definition t_goes_on (cfg : config) (es : list (nat * event)) (st : state) (m : nat) : bool :=
  if locksb es && dumping st m then existsb (fun x => existsb (can cfg st (fst x)) [Acquire true; Pump; Release]) es else true.

Definition t_run (cfg : config) (es : list (nat * event)) (ms cs : list nat) (more : list event) : bool :=
  match run cfg init es with
  | None => true
  | Some st =>
      t_blocks cfg es st && t_where cfg st &&
      forallb (fun m => t_entering cfg es st m && t_goes_on cfg es st m && forallb (t_next cfg es st m) more &&
        forallb (fun c => t_prefix cfg es st m c && t_complete cfg es st m c && t_direct cfg es st m c && t_line cfg es st m c && t_held cfg es st m c && t_one_block cfg es st m c) cs) ms
  end.
