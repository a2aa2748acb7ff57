(** Instances of the theorems of C64, computed: this file knows the model and the specification, not the proofs.  Properties_Ar
    derives the same statements from the theorems; so a change of the model that breaks one of them makes a theorem false. *)
From Verif Require Import Base M_Text M_Line M_Implicit M_Auto S_Text M_Ar S_Ar.
From Coq Require Import Permutation.
Open Scope string_scope.
Open Scope list_scope.
Open Scope nat_scope.

Definition w_pad (w : nat) (s : str) : str := s ++ repeat c_sp (w - length s).
Definition w_h (date : str) : str := w_pad 12 date ++ w_pad 6 (s2l "7") ++ w_pad 6 (s2l "8") ++ w_pad 8 (s2l "644").
Definition w_member (id date size data pad rest : str) : str := w_pad 16 id ++ w_h date ++ w_pad 10 size ++ mark ++ data ++ pad ++ rest.
Definition w_table : str := s2l "some_long_file.o/" ++ [c_nl] ++ s2l "another_long_name.o/" ++ [c_nl].
Definition w_bsd : str := s2l "bsd long.name" ++ repeat c_nul 2 ++ s2l "x".
(** One member of each kind, and a second b.o. *)
Definition w_text : str :=
  w_member [c_slash] (s2l "1600000000") (s2l "4") (s2l "syms") []
  (w_member [c_slash; c_slash] (s2l "0") (s2l "39") w_table [c_nl]
  (w_member (c_slash :: s2l "18") (s2l "77") (s2l "3") (s2l "abc") [c_nl]
  (w_member (s2l "b.o" ++ [c_slash]) (s2l "5") (s2l "0") [] []
  (w_member (s2l "bare") (s2l "6") (s2l "1") (s2l "y") [c_nl]
  (w_member (s2l "#1/" ++ s2l "15") (s2l "10000000000") (s2l "16") w_bsd []
  (w_member (s2l "b.o" ++ [c_slash]) (s2l "9") (s2l "2") (s2l "zz") [] [])))))).
Definition w_entries : list entry :=
  [mkentry [] true 8 4 (Some 1600000000%Z); mkentry [c_slash] true 72 39 (Some 0%Z); mkentry (s2l "another_long_name.o") false 172 3 (Some 77%Z);
   mkentry (s2l "b.o") true 236 0 (Some 5%Z); mkentry (s2l "bare") true 296 1 (Some 6%Z); mkentry (s2l "bsd long.name") false 358 16 (Some 10000000000%Z);
   mkentry (s2l "b.o") true 434 2 (Some 9%Z)].
Definition w_file : str := magic_line ++ w_text.
Definition w_need : Z := 56.

Definition w_collect (a : list entry) (n : str) (short : bool) (pos size date : Z) : list entry * Z := (mkentry n short pos size (Some date) :: a, 0%Z).
Definition w_scan : Prop := ar_scan w_collect 8 w_need (Some w_file) [] = (rev w_entries, Done).
(** FUNCTION stops the scan. *)
Definition w_stop (a : nat) (n : str) (short : bool) (pos size date : Z) : nat * Z := (S a, if (date =? 77)%Z then pos else 0%Z).
Definition w_scan_stop : Prop := ar_scan w_stop 8 w_need (Some w_file) 0 = (3, Found 172).

Definition w_date_of (file mem : str) : date_result := ar_member_date (fun n => if str_eqb n (s2l "x.a") then Some file else None) 8 w_need (s2l "x.a" ++ c_lparen :: mem ++ [c_rparen]).
Definition w_dates : Prop :=
  w_date_of w_file (s2l "dir/another_long_name.o") = Date 77 /\ w_date_of w_file (s2l "b.o") = Date 5 /\ w_date_of w_file (s2l "bare") = Date 6 /\
  w_date_of w_file (s2l "d/e/bsd long.name") = Date 10000000000 /\ w_date_of w_file (s2l "another_long_name.obj") = Absent /\
  w_date_of w_file (s2l "another_long_na") = Absent /\ w_date_of w_file (s2l "bar") = Absent.

Definition w_touch_b (time : Z) : touch_result := ar_member_touch 8 w_need (Some w_file) (s2l "b.o") time.
(** Only 12 bytes change, and the date is the new one. *)
Definition w_touch : Prop :=
  exists t', w_touch_b 12345678901 = Touched t' /\ length t' = length w_file /\ firstn 252 t' = firstn 252 w_file /\ skipn 264 t' = skipn 264 w_file /\
    w_date_of t' (s2l "b.o") = Date 12345678901.
Definition w_touch_none : Prop := ar_member_touch 8 w_need (Some w_file) (s2l "nobody") 5 = No_member.

Definition w_fnmatch (p m : str) : bool := prefixb (s2l "b") m.
Definition w_glob : Prop :=
  exists names, ar_glob w_fnmatch (fun l => l) 8 w_need (Some w_file) (s2l "x.a") (s2l "b*") = inl names /\
    Permutation names [s2l "x.a(b.o)"; s2l "x.a(bare)"; s2l "x.a(bsd long.name)"; s2l "x.a(b.o)"].

Example w_scan_holds : w_scan. Proof. vm_compute. reflexivity. Qed.
Example w_scan_stop_holds : w_scan_stop. Proof. vm_compute. reflexivity. Qed.
Example w_dates_holds : w_dates. Proof. repeat split; vm_compute; reflexivity. Qed.
Definition w_touched : str := match w_touch_b 12345678901 with Touched t => t | _ => [] end.
Example w_touch_holds : w_touch. Proof. exists w_touched. split; [|split; [|split; [|split]]]; vm_compute; reflexivity. Qed.
Example w_touch_none_holds : w_touch_none. Proof. vm_compute. reflexivity. Qed.
Definition w_names : list str := match ar_glob w_fnmatch (fun l => l) 8 w_need (Some w_file) (s2l "x.a") (s2l "b*") with inl l => l | _ => [] end.
Example w_glob_holds : w_glob.
Proof. exists w_names. split; [vm_compute; reflexivity|]. replace w_names with (rev [s2l "x.a(b.o)"; s2l "x.a(bare)"; s2l "x.a(bsd long.name)"; s2l "x.a(b.o)"]) by (vm_compute; reflexivity). apply Permutation_sym, Permutation_rev. Qed.

(** Two tables, one of them long, with a name without slash; names of 14 and of 16 characters; a name in the data without NULs. *)
Definition v_table : str := repeat "p"%char 300 ++ [c_nl] ++ s2l "noslash_name_long.o" ++ [c_nl].
Definition v_table2 : str := s2l "second_table_name.o/" ++ [c_nl].
Definition v_text : str :=
  w_member [c_slash; c_slash] (s2l "0") (s2l "321") v_table [c_nl]
  (w_member (c_slash :: s2l "301") (s2l "10000000000") (s2l "2") (s2l "zz") []
  (w_member [c_slash; c_slash] (s2l "0") (s2l "21") v_table2 [c_nl]
  (w_member (c_slash :: s2l "0") (s2l "3") (s2l "0") [] []
  (w_member (s2l "abcdefghijklmn" ++ [c_slash]) (s2l "4") (s2l "0") [] []
  (w_member (s2l "#1/" ++ s2l "12") (s2l "8") (s2l "12") (s2l "twelve_chars") []
  (w_member (c_slash :: s2l "0") (s2l "11") (s2l "0") [] [] [])))))).
Definition v_entries : list entry :=
  [mkentry [c_slash] true 8 321 (Some 0%Z); mkentry (s2l "noslash_name_long.o") false 390 2 (Some 10000000000%Z); mkentry [c_slash] true 452 21 (Some 0%Z);
   mkentry (s2l "second_table_name.o") false 534 0 (Some 3%Z); mkentry (s2l "abcdefghijklmn") true 594 0 (Some 4%Z); mkentry (s2l "twelve_chars") false 654 12 (Some 8%Z);
   mkentry (s2l "second_table_name.o") false 726 0 (Some 11%Z)].
Definition v_need : Z := 357.
Definition v_file : str := magic_line ++ v_text.
Definition v_scan : Prop := ar_scan w_collect 8 v_need (Some v_file) [] = (rev v_entries, Done).
Definition v_absent : Prop := ar_member_date (fun _ => Some v_file) 8 v_need (s2l "x.a" ++ c_lparen :: s2l "abcdefghijklmno" ++ [c_rparen]) = Absent.
(** A short date over a long one. *)
Definition v_touch : Prop :=
  exists t' s, ar_member_touch 8 v_need (Some v_file) (s2l "noslash_name_long.o") 5 = Touched t' /\ number s 5 /\ padded 12 s (firstn 12 (skipn 406 t')).
Definition u_text : str := w_member (s2l "abcdefghijklmnop") (s2l "4") (s2l "0") [] [] [].
Definition u_scan : Prop := ar_scan w_collect 2 0 (Some (magic_line ++ u_text)) [] = ([mkentry (s2l "abcdefghijklmnop") true 8 0 (Some 4%Z)], Done).
(** Damaged archives. *)
Definition w_junk : str := w_pad 58 (s2l "c.o/") ++ s2l "xx".
Definition w_damaged : Prop :=
  ar_scan w_collect 8 w_need (Some (magic_line ++ w_text ++ w_junk)) [] = (rev w_entries, Invalid) /\
  ar_scan w_collect 8 w_need (Some (magic_line ++ w_text ++ s2l "c.o/")) [] = (rev w_entries, Invalid) /\
  ar_scan w_collect 8 w_need (Some (s2l "!<ARCH>" ++ [c_nl] ++ w_text)) [] = ([], Invalid).
(** Quoted characters are no patterns. *)
Definition w_plain : Prop := ar_glob w_fnmatch (fun l => l) 8 w_need (Some w_file) (s2l "x.a") (s2l "b" ++ c_bslash :: s2l "*") = inl [].

Example v_scan_holds : v_scan. Proof. vm_compute. reflexivity. Qed.
Example v_absent_holds : v_absent. Proof. vm_compute. reflexivity. Qed.
Definition v_touched : str := match ar_member_touch 8 v_need (Some v_file) (s2l "noslash_name_long.o") 5 with Touched t => t | _ => [] end.
Example v_touch_holds : v_touch.
Proof.
  exists v_touched, (s2l "5"). split; [vm_compute; reflexivity|]. split; [split; [discriminate|split; [repeat constructor; vm_compute; repeat constructor|reflexivity]]|].
  split; [vm_compute; reflexivity|]. exists 11. vm_compute. reflexivity.
Qed.
Example u_scan_holds : u_scan. Proof. vm_compute. reflexivity. Qed.
Example w_damaged_holds : w_damaged. Proof. split; [|split]; vm_compute; reflexivity. Qed.
Example w_plain_holds : w_plain. Proof. vm_compute. reflexivity. Qed.
