(** C66 as tests: what the theorems say of one sequence of calls and one more question. *)
From Verif Require Import Base M_Dir S_Dir.
Open Scope list_scope.
Open Scope nat_scope.

Definition inb (f : str) (l : list str) : bool := existsb (str_eqb f) l.
Definition presentb (vs : list (world * str)) (d f : str) : bool := match files vs d with Some l => inb f l | None => false end.
Definition sameb (vs : list (world * str)) (d e : str) : bool :=
  str_eqb d e || match node vs d, node vs e with Some i, Some j => i =? j | _, _ => false end.
Definition is_mark (k : call) : option (str * str) := match k with Mark d f => Some (d, f) | _ => None end.
Definition was_markedb (es : list (world * call)) (d f : str) : bool :=
  existsb (fun x => match is_mark (snd x) with Some (e, g) => str_eqb f g && sameb (visits es) d e | None => false end) es.
Definition any_marked (es : list (world * call)) (d : str) : bool :=
  existsb (fun x => match is_mark (snd x) with Some (e, g) => sameb (visits es) d e | None => false end) es.
Definition carefulb (es : list (world * call)) : bool :=
  forallb (fun x => match is_mark (snd x) with
                    | Some (d, []) => match files (visits es) d with None => true | Some _ => false end
                    | Some (d, f) => negb (presentb (visits es) d f)
                    | None => true
                    end) es.
Fixpoint distinct (l : list str) : bool := match l with [] => true | f :: l' => negb (inb f l') && distinct l' end.

Definition t_exists (es : list (world * call)) (w : world) (d f : str) : bool :=
  let b := snd (dir_file_exists_p w (calls init es) d f) in
  let es' := es ++ [(w, Exists d f)] in
  match f with
  | [] => eqb b (match files (visits es') d with Some _ => true | None => any_marked es' d end)
  | _ => eqb b (presentb (visits es') d f)
  end.
Definition t_marked (es : list (world * call)) (w : world) (d f : str) : bool :=
  eqb (snd (marked w (calls init es) d f)) (was_markedb (es ++ [(w, Marked d f)]) d f).
Definition t_glob (es : list (world * call)) (w : world) (d : str) : bool :=
  let es' := es ++ [(w, Glob d)] in
  match files (visits es') d, snd (list_dir w (calls init es) d) with
  | Some l, Some names => distinct names && forallb (fun f => inb f l) names && forallb (fun f => inb f names) l
  | Some _, None => false
  | None, None => true
  | None, Some [] => any_marked es' d
  | None, Some _ => false
  end.
(** The open ones among the numbers that can occur. *)
Definition is_open (st : state) (i : nat) : bool :=
  match s_contents st (Node i) with Some c => match c_stream c with Some _ => true | None => false end | None => false end.
Definition t_open (es : list (world * call)) (n : nat) : bool :=
  let k := length (filter (is_open (calls init es)) (seq 0 n)) in (k <=? s_open (calls init es)) && (s_open (calls init es) <? 10).
Definition nodes (vs : list (world * str)) : list nat := flat_map (fun v => match node vs (snd v) with Some i => [i] | None => [] end) vs.
Definition t_count (es : list (world * call)) : bool :=
  length (filter (is_open (calls init es)) (nodup Nat.eq_dec (nodes (visits es)))) =? s_open (calls init es).
Definition t_run (es : list (world * call)) (w : world) (ds fs : list str) (n : nat) : bool :=
  t_open es n &&
  (if carefulb es then t_count es && forallb (fun d => t_glob es w d && forallb (fun f => t_exists es w d f && t_marked es w d f) fs) ds else true).

(** A name, put together again. *)
Definition t_split (name : str) : bool :=
  let (d, f) := split_name name in
  negb (existsb (Ascii.eqb c_slash) f) &&
  (if str_eqb name f then str_eqb d [c_dot] else str_eqb name (c_slash :: f) && str_eqb d [c_slash] || (negb (str_eqb d []) && str_eqb name (d ++ c_slash :: f))).
