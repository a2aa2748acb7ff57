(** Tests of what S_Mtime says, for files in a finite table. *)
From Verif Require Import Base M_Rename S_Rename S_RenameCheck M_Mtime S_Mtime.
Open Scope list_scope.
Open Scope nat_scope.

(** What the time and the mark are not part of. *)
Definition rest_eqb (a b : file) : bool := str_eqb (f_hname a) (f_hname b) && str_eqb (f_name a) (f_name b) && strs_eqb (f_deps a) (f_deps b) && opt_eqb (f_colon a) (f_colon b) && opt_eqb (f_prev a) (f_prev b) && opt_eqb (f_renamed a) (f_renamed b) && flags_eqb (f_flags a) (f_flags b).
Definition recordedb (n : nat) (ns : nat -> bool) (h h' : nat -> file) (hd m : nat) (addrs : list nat) : bool :=
  match chain n h hd with
  | None => true
  | Some es => forallb (fun e =>
      rest_eqb (h' e) (h e) &&
      if memb e es
      then (f_mtime (h' e) =? (if Bool.eqb (w_updated (f_flags (h e))) (w_updated (f_flags (h hd))) then m else f_mtime (h e))) &&
           Bool.eqb (w_intermediate (f_others (h' e))) (w_intermediate (f_others (h e)) && negb (negb (m =? NONEXISTENT) && ns e && negb (w_tried (f_flags (h e)))))
      else (f_mtime (h' e) =? f_mtime (h e)) && others_eqb (f_others (h' e)) (f_others (h e))) addrs
  end.
(** What is found, by S_Mtime. *)
Definition foundb (vp lib : str -> option (str * nat)) (name : str) : option (str * nat) :=
  match vp name with Some r => Some r | None => match name with "-"%char :: "l"%char :: _ => lib name | _ => None end end.
Section Test.
  Variables (NEW : nat) (nt : str -> nat) (vp lib : str -> option (str * nat)) (gp : list str) (ns : nat -> bool) (n : nat) (h : nat -> file) (l : list (str * nat)) (i : nat) (search : bool) (d : str).
  Variables (names : list str) (addrs : list nat).
  Let s := mkstate h (listed l).
  Let name := f_name (h i).
  Let old := f_hname (h i).
  Let nm := d ++ "/"%char :: name.
  Definition other_names (s' : state) : bool := forallb (fun x => str_eqb x nm || str_eqb x old || opt_eqb (table s' x) (table s x)) names.
  Definition all_get (s' : state) (j : nat) : bool :=
    forallb (fun x => match follow n h x, follow n (heap s') x with Some y, Some z => z =? (if y =? i then j else y) | _, _ => true end) addrs.
  Definition t_time : bool :=
    if soundb n h l && opt_eqb (listed l old) (Some i) then
      match f_time NEW nt vp lib gp ns 5 n s i search with
      | Time s' m =>
          if negb (nt name =? NONEXISTENT) || negb search || w_ignore (f_flags (h i)) || negb (match foundb vp lib name with Some _ => true | None => false end) then
            (m =? nt name) && forallb (fun x => opt_eqb (table s' x) (table s x)) names && recordedb n ns h (heap s') (head_of h i) m addrs
          else match foundb vp lib name with
               | Some (x, t) =>
                   if negb (str_eqb x nm) || str_eqb old nm then true
                   else if existsb (str_eqb d) gp then
                     if (f_mtime (h i) =? UNKNOWN) && opt_eqb (listed l nm) None && (negb (t =? UNKNOWN) || negb (nt nm =? NONEXISTENT)) then
                       (m =? (if t =? UNKNOWN then nt nm else t)) && str_eqb (f_name (heap s' i)) nm && opt_eqb (table s' nm) (Some i) && opt_eqb (table s' old) None && other_names s' && all_get s' i
                     else let j := now_at s i nm in
                       if (f_mtime (h i) =? UNKNOWN) && opt_eqb (listed l nm) (Some j) && str_eqb (f_name (h j)) nm && negb (nt nm =? NONEXISTENT) then
                         let x := Nat.max (f_mtime (h j)) t in
                         (m =? (if x =? UNKNOWN then nt nm else x)) && str_eqb (f_name (heap s' i)) nm && str_eqb (f_name (heap s' j)) nm && opt_eqb (table s' nm) (Some j) && opt_eqb (table s' old) None && other_names s' && all_get s' j
                       else true
                   else
                     let j := now_at s i nm in
                     (m =? (if (t =? OLD) || (t =? NEW) then t else nt nm)) && opt_eqb (table s' nm) (Some j) && opt_eqb (table s' old) None && other_names s' && all_get s' j &&
                     str_eqb (f_name (heap s' i)) name && (f_mtime (heap s' (head_of (heap s') j)) =? m)
               | None => true
               end
      | _ => true
      end
    else true.
End Test.
(** Times in the future. *)
Definition countsb (NEW : nat) (x : nat * nat * nat * bool) : bool := let '(_, _, m, u) := x in negb (m =? NONEXISTENT) && negb (m =? NEW) && negb u.
Definition futureb (NEW : nat) (x : nat * nat * nat * bool) : bool := countsb NEW x && (limit x <? time_of x).
Definition t_skew (NEW : nat) (l : list (nat * nat * nat * bool)) : bool :=
  let r := look_all NEW (mkskew false 0) l in
  (length (filter (fun b : bool => b) r) <=? 1) && forallb (fun p => match nth_error l p, nth_error r p with Some x, Some true => futureb NEW x | _, _ => true end) (seq 0 (length l)) &&
  forallb (fun p => match nth_error l p with
                    | Some x => if futureb NEW x && forallb (fun y => limit y <=? limit x) (firstn (S p) l) then existsb (fun b : bool => b) (firstn (S p) r) else true
                    | None => true
                    end) (seq 0 (length l)).
