(** C52: the logical lines of makefiles. *)
From Verif Require Import Base M_Line S_Line P_Line.
From Coq Require Import Lia.
Open Scope string_scope.
Open Scope list_scope.
Open Scope nat_scope.

(** A file without NULs is read as its logical lines, each with the number of its first line, whatever the
    size of the buffer; carriage returns before newlines do not count. *)
Theorem C52_file size t : 2 <= size -> ~ In c_nul t ->
  exists ls, read_file (S (length t)) size 1 t = Some ls /\ logical 1 (dropcr t) ls.
Proof. intros Z N. apply read_file_logical; [exact Z|exact N|lia]. Qed.
(** So the buffer is never too small and its size never shows. *)
Theorem C52_buffer size size' t : 2 <= size -> 2 <= size' -> ~ In c_nul t ->
  read_file (S (length t)) size 1 t = read_file (S (length t)) size' 1 t.
Proof.
  intros Z Z' N. destruct (C52_file size t Z N) as [ls [E L]]. destruct (C52_file size' t Z' N) as [ls' [E' L']].
  rewrite E, E'. f_equal. exact (proj2 (logical_fun _ _ _ _ _ L L') eq_refl).
Qed.
(** A string given to eval has the same logical lines. *)
Theorem C52_string t : exists ls, read_string (S (length t)) t = Some (map snd ls) /\ logical 1 t ls.
Proof. apply read_string_logical. lia. Qed.
(** The same text gives the same lines from a file and from eval, if it has no carriage returns before newlines. *)
Theorem C52_same size t : 2 <= size -> ~ In c_nul t -> dropcr t = t ->
  exists ls, read_file (S (length t)) size 1 t = Some ls /\ read_string (S (length t)) t = Some (map snd ls).
Proof.
  intros Z N D. destruct (C52_file size t Z N) as [ls [E L]]. destruct (C52_string t) as [ls' [E' L']].
  exists ls. split; [exact E|]. rewrite E', (proj1 (logical_fun _ _ _ _ _ L' (eq_ind _ (fun x => logical 1 x ls) L _ D))). reflexivity.
Qed.
(** The number of a line says where it stands: it is one more than the newlines before it. *)
Theorem C52_numbers size t ls m l : 2 <= size -> ~ In c_nul t -> dropcr t = t ->
  read_file (S (length t)) size 1 t = Some ls -> In (m, l) ls ->
  exists b a, t = b ++ l ++ a /\ m = 1 + count_occ ascii_dec b c_nl /\
    (b = [] \/ exists b', b = b' ++ [c_nl]) /\ (a = [] \/ exists a', a = c_nl :: a').
Proof.
  intros Z N D R I. destruct (C52_file size t Z N) as [ls' [E L]]. rewrite E in R. injection R as ->. rewrite D in L.
  exact (logical_place _ _ _ L _ _ I).
Qed.
(** Nothing is lost but the newlines between the lines. *)
Theorem C52_whole size t ls : 2 <= size -> ~ In c_nul t ->
  read_file (S (length t)) size 1 t = Some ls ->
  dropcr t = join (map snd ls) \/ dropcr t = join (map snd ls) ++ [c_nl].
Proof.
  intros Z N R. destruct (C52_file size t Z N) as [ls' [E L]]. rewrite E in R. injection R as ->. exact (logical_join _ _ _ L).
Qed.
(** A NUL inside a line: the next line is taken as its end, and the numbers are wrong from there on. *)
Theorem C52_nul_refuted : exists t ls,
  read_file (S (length t)) 200 1 t = Some ls /\ t = (s2l "a") ++ c_nul :: (s2l "b") ++ c_nl :: (s2l "c") ++ c_nl :: (s2l "d") ++ [c_nl] /\
  ls = [(1, (s2l "ac")); (2, (s2l "d"))].
Proof. eexists. eexists. split; [|split; reflexivity]. vm_compute. reflexivity. Qed.
(** The same carriage returns stay in the text of a string. *)
Theorem C52_cr_refuted : exists t ls ls', ~ In c_nul t /\
  read_file (S (length t)) 200 1 t = Some ls /\ read_string (S (length t)) t = Some ls' /\ map snd ls <> ls'.
Proof.
  exists ((s2l "a") ++ [c_cr; c_nl]). eexists. eexists. split; [|split; [vm_compute; reflexivity|split; [vm_compute; reflexivity|discriminate]]].
  intros [H|[H|[H|[]]]]; discriminate H.
Qed.

Example C52_ex : read_file 40 5 1 ((s2l "a = b") ++ [c_bslash; c_nl] ++ (s2l "c") ++ [c_cr; c_nl] ++ (s2l "d") ++ [c_bslash; c_bslash; c_nl] ++ (s2l "e")) =
  Some [(1, (s2l "a = b") ++ [c_bslash; c_nl] ++ (s2l "c")); (3, (s2l "d") ++ [c_bslash; c_bslash]); (4, (s2l "e"))].
Proof. vm_compute. reflexivity. Qed.

Print Assumptions C52_file.
Print Assumptions C52_buffer.
Print Assumptions C52_string.
Print Assumptions C52_same.
Print Assumptions C52_numbers.
Print Assumptions C52_whole.
Print Assumptions C52_nul_refuted.
Print Assumptions C52_cr_refuted.
