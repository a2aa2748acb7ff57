(** C71, computed for generated tables of files.  Nothing is proved of the model here; Properties_MtimeCheck says that all of these tests must succeed. *)
From Coq Require Import NArith.
From Verif Require Import Base M_Rename S_Rename S_RenameCheck M_Mtime S_Mtime S_MtimeCheck W_Random.
Open Scope string_scope.
Open Scope list_scope.
Open Scope nat_scope.

Definition bits (s : N) : (nat -> bool) * N := let s' := next s in (fun k => N.testbit s' (N.of_nat (12 + k)), s').
Definition w_flags (s : N) : flags * N := let '(b, s) := bits s in (mkflags false (b 0) false (b 1) (b 2) false false false (b 3 && b 4 && b 5), s).
(** Files 0 and 1 may be in the table; 2 and 3 are further entries; 4 was merged before. *)
Definition w_file (i : nat) (nm : str) (s : N) : file * N :=
  let '(fl, s) := w_flags s in let '(b, s) := bits s in
  let m := if b 0 then 0 else if b 1 then 3 else 7 in
  let dc := (i <? 2) && b 2 in
  let prev := if dc && b 3 then Some (2 + i) else if (i =? 2) && b 4 then Some 3 else None in
  (mkfile nm nm None [] [] (if dc then Some i else None) prev (if i =? 4 then Some (if b 5 then 0 else 1) else None) (if i =? 0 then if b 6 then 0 else m else m) 0 false fl (mkothers 0 (b 7) (b 8) false 0), s).
Definition addrs : list nat := [0; 1; 2; 3; 4].
Record case := mkcase { c_h : nat -> file; c_t : list (str * nat); c_name : str; c_d : str; c_nt : str -> nat; c_vp : str -> option (str * nat); c_lib : str -> option (str * nat); c_gp : list str; c_ns : nat -> bool; c_search : bool }.
Definition w_case (s0 : N) : case :=
  let '(b, s) := bits s0 in
  let name := if b 0 && b 1 then s2l "-lx" else if b 13 then s2l "-x" else s2l "x" in
  let d := if b 2 then s2l "s" else s2l "s/t" in
  let nm := d ++ "/"%char :: name in
  let '(f0, s) := w_file 0 name s in let '(f1, s) := w_file 1 nm s in let '(f2, s) := w_file 2 name s in let '(f3, s) := w_file 3 name s in let '(f4, s) := w_file 4 nm s in
  let '(c, s) := bits s in
  let t := if b 3 then UNKNOWN else if b 4 then OLD else if b 5 then 99 else 6 in
  mkcase (fun i => nth i [f0; f1; f2; f3; f4] f0) ((name, 0) :: (if b 6 then [(nm, 1)] else [])) name d
    (fun x => if str_eqb x name then if c 0 && c 1 then 5 else NONEXISTENT else if str_eqb x nm then if c 2 && c 3 then NONEXISTENT else 8 else 4)
    (fun x => if str_eqb x name && (b 7 || b 8) then Some (nm, t) else None)
    (fun x => if str_eqb x name then Some (if b 9 then nm else s2l "u/libx.a", t) else None)
    ((if b 10 then [d] else []) ++ (if b 11 then [s2l "u"; nm] else [s2l "s/"])) c (negb (b 12 && c 4)).
Definition run (c : case) : answer := f_time 99 (c_nt c) (c_vp c) (c_lib c) (c_gp c) (fun e => c_ns c (6 + e)) 5 9 (mkstate (c_h c) (listed (c_t c))) 0 (c_search c).
Definition one_time (s : N) : bool :=
  let c := w_case s in let nm := c_d c ++ "/"%char :: c_name c in
  t_time 99 (c_nt c) (c_vp c) (c_lib c) (c_gp c) (fun e => c_ns c (6 + e)) 9 (c_h c) (c_t c) 0 (c_search c) (c_d c) [c_name c; nm; s2l "u/libx.a"] addrs.
Definition times_hold (l : list N) : bool := forallb one_time l.
Definition w_look (s : N) : (nat * nat * nat * bool) * N := let '(a, s) := roll 12 s in let '(r, s) := roll 3 s in let '(m, s) := roll 16 s in let '(u, s) := chance 20 s in ((a, r, m, u), s).
Fixpoint w_looks (k : nat) (s : N) : list (nat * nat * nat * bool) := match k with 0 => [] | S k' => let '(x, s) := w_look s in x :: w_looks k' s end.
Definition skews_hold (l : list N) : bool := forallb (fun s => t_skew 15 (w_looks 5 s)) l.
(** The cases: 1 for a file that is where it is named, 2 and 3 for files found without and with GPATH, 4 for names of one kind in rules of the other. *)
Definition kind (s : N) : nat :=
  let c := w_case s in
  match run c with
  | Time s' m => if negb (is_some (table s' (c_name c))) then if str_eqb (f_name (heap s' 0)) (c_name c) then 2 else 3 else 1
  | Stopped _ => 4
  | _ => 0
  end.
Definition usable (s : N) : bool := let c := w_case s in soundb 9 (c_h c) (c_t c).
Example times_1 : unit. Proof. computes (times_hold (seeds 800 17)). Qed.
Example times_2 : unit. Proof. computes (times_hold (seeds 800 40000017)). Qed.
Example skews_1 : unit. Proof. computes (skews_hold (seeds 300 23)). Qed.
Example many : unit. Proof. computes (50 <=? length (filter usable (seeds 100 17))). Qed.
Example kinds : unit. Proof. computes (forallb (fun k => existsb (fun s => kind s =? k) (seeds 100 17)) [1; 2; 3; 4]). Qed.
Example times_small : times_hold (seeds 3 5) = true. Proof. vm_compute. reflexivity. Qed.
