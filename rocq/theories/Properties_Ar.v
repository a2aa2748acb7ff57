(** C64: archives and their members. *)
From Verif Require Import Base M_Text M_Line M_Implicit M_Auto S_Text M_Ar S_Ar W_Ar P_Ar.
From Coq Require Import ZArith Lia Permutation.
Open Scope string_scope.
Open Scope list_scope.
Open Scope nat_scope.

(** FUNCTION is called for the members one after the other, with their names, positions, sizes and dates, until it returns something else than 0. *)
Theorem C64_scan :
  forall t l need, archive None 8 t l need ->
  exists evs, Forall2 fits l evs /\
  forall A f (a : A) fuel stack, (need <= stack)%Z -> length l < fuel -> ar_scan f fuel stack (Some (magic_line ++ t)) a = visit f a evs.
Proof.
  intros t l need H. destruct (scan_archive _ _ _ _ _ H magic_line eq_refl eq_refl) as (evs & F & SC). exists evs. split; [exact F|].
  intros A f a fuel stack NS LF. unfold ar_scan. change (firstn 8 (magic_line ++ t)) with magic. rewrite str_eqb_refl. pose proof (SC None stack fuel A f a [] Done I NS LF (or_introl (conj eq_refl eq_refl))) as H2. rewrite app_nil_r in H2. rewrite H2. destruct (visit f a evs) as [a' []]; reflexivity.
Qed.
Print Assumptions C64_scan.

(** An archive that is damaged behind some members is invalid, unless FUNCTION stops before that; a file that does not start with the magic line is invalid and FUNCTION is not called. *)
Theorem C64_damaged :
  (forall t l need junk, archive None 8 t l need -> damaged junk -> exists evs, Forall2 fits l evs /\
    forall A f (a : A) fuel stack, (need <= stack)%Z -> length l < fuel ->
    ar_scan f fuel stack (Some (magic_line ++ t ++ junk)) a = match visit f a evs with (a', Done) => (a', Invalid) | r => r end) /\
  (forall file, (forall t, file <> magic_line ++ t) -> forall A f (a : A) fuel stack, ar_scan f fuel stack (Some file) a = (a, Invalid)).
Proof.
  split.
  - intros t l need junk H D. destruct (scan_archive _ _ _ _ _ H magic_line eq_refl eq_refl) as (evs & F & SC). exists evs. split; [exact F|].
    intros A f a fuel stack NS LF. unfold ar_scan. change (firstn 8 (magic_line ++ t ++ junk)) with magic. rewrite str_eqb_refl. apply SC; [exact I|exact NS|exact LF|right; split; [exact D|reflexivity]].
  - intros file N A f a fuel stack. unfold ar_scan. destruct (str_eqb (firstn 8 file) magic) eqn:E; [|reflexivity]. apply str_eqb_eq in E. exfalso. apply (N (skipn 8 file)).
    change magic_line with magic. rewrite <- E. symmetry. apply firstn_skipn.
Qed.
Print Assumptions C64_damaged.

(** No name in a header fills it, except the one that is looked for. *)
Definition clear (l : list entry) (b : str) : Prop := forall e, In e l -> e_short e = true -> length (e_name e) < 15 \/ e_name e = b.

(** lib(dir/name) has the date of the first member "name"; it does not exist if there is none. *)
Theorem C64_date :
  forall read ar t l need mem b fuel stack, read ar = Some (magic_line ++ t) -> archive None 8 t l need -> (need <= stack)%Z -> length l < fuel ->
  ~ In c_lparen ar -> base mem b -> clear l b ->
  let result := ar_member_date read fuel stack (ar ++ c_lparen :: mem ++ [c_rparen]) in
  (forall l1 e l2 d, l = l1 ++ e :: l2 -> e_name e = b -> e_date e = Some d -> (forall x, In x l1 -> e_name x <> b) -> result = Date d) /\
  ((forall e, In e l -> e_name e <> b) -> result = Absent).
Proof.
  intros read ar t l need mem b fuel stack RD AR NS LF NP B C. cbv zeta. unfold ar_member_date. rewrite (split_name ar mem NP), RD.
  destruct (C64_scan t l need AR) as (evs & F & SC). rewrite (SC Z (date_callback mem) 0%Z fuel stack NS LF).
  destruct (visit_find (date_callback mem) 0%Z l evs mem b F B C) as [V1 V2].
  { intros a n s p z d E. unfold date_callback. rewrite E. reflexivity. }
  split.
  - intros l1 e l2 d E EB ED N. destruct (V2 l1 e l2 E EB N) as (date & DD & V). rewrite ED in DD. subst date. rewrite (V d 1%Z); [reflexivity| |discriminate].
    unfold date_callback. assert (Q : ar_name_equal mem (e_name e) (e_short e) = true); [|rewrite Q; reflexivity].
    apply (equal_iff mem b); [exact B| |exact EB]. intros S. apply C; [rewrite E; apply in_or_app; right; left; reflexivity|exact S].
  - intros N. rewrite (V1 N). reflexivity.
Qed.
Print Assumptions C64_date.

(** Touching a member changes its date and nothing else. *)
Theorem C64_touch :
  forall t l need mem b fuel stack time, archive None 8 t l need -> (need <= stack)%Z -> length l < fuel ->
  base mem b -> clear l b -> (0 <= time < 10 ^ 11)%Z ->
  let result := ar_member_touch fuel stack (Some (magic_line ++ t)) mem time in
  (forall l1 e l2, l = l1 ++ e :: l2 -> e_name e = b -> (forall x, In x l1 -> e_name x <> b) ->
     exists t', result = Touched (magic_line ++ t') /\ archive None 8 t' (l1 ++ mkentry b (e_short e) (e_pos e) (e_size e) (Some time) :: l2) need /\
       exists a old new z, t = a ++ old ++ z /\ t' = a ++ new ++ z /\ length old = 12 /\ (exists s, number s time /\ padded 12 s new) /\ (Z.of_nat (length a) + 8 = e_pos e + 16)%Z) /\
  ((forall e, In e l -> e_name e <> b) -> result = No_member).
Proof.
  intros t l need mem b fuel stack time AR NS LF B C TB. cbv zeta. unfold ar_member_touch.
  destruct (C64_scan t l need AR) as (evs & F & SC). rewrite (SC unit (pos_callback mem) tt fuel stack NS LF).
  destruct (visit_find (pos_callback mem) tt l evs mem b F B C) as [V1 V2].
  { intros a n s p z d E. unfold pos_callback. rewrite E. reflexivity. }
  split; [|intros N; rewrite (V1 N); reflexivity].
  intros l1 e l2 E EB N. destruct (V2 l1 e l2 E EB N) as (date & _ & V).
  assert (IE : In e l) by (rewrite E; apply in_or_app; right; left; reflexivity).
  assert (PE : (0 < e_pos e)%Z) by (apply (archive_pos _ _ _ _ _ AR ltac:(lia) e IE)).
  rewrite (V tt (e_pos e)); [| |lia].
  2:{ unfold pos_callback. assert (Q : ar_name_equal mem (e_name e) (e_short e) = true); [|rewrite Q; reflexivity].
      apply (equal_iff mem b); [exact B| |exact EB]. intros S. exact (C e IE S). }
  destruct (touch_archive _ _ _ _ _ AR l1 e l2 time E TB) as (a & id & h & tail & h' & ET & EP & LI & LH & L12 & NH & LH' & SK & PD12 & AR').
  assert (TP : Z.to_nat (e_pos e) = length (magic_line ++ a)) by (rewrite app_length; change (length magic_line) with 8; lia).
  assert (TX : magic_line ++ t = (magic_line ++ a) ++ (id ++ h ++ firstn 12 tail) ++ skipn 12 tail).
  { rewrite ET, <- !app_assoc. rewrite firstn_skipn. reflexivity. }
  assert (L60 : length (id ++ h ++ firstn 12 tail) = 60) by (rewrite !app_length, LI, LH, L12; reflexivity).
  rewrite TX, TP.
  assert (S1 : skipn (length (magic_line ++ a)) ((magic_line ++ a) ++ (id ++ h ++ firstn 12 tail) ++ skipn 12 tail) = (id ++ h ++ firstn 12 tail) ++ skipn 12 tail) by (rewrite skipn_app, skipn_all, Nat.sub_diag; reflexivity).
  assert (S2 : firstn (length (magic_line ++ a)) ((magic_line ++ a) ++ (id ++ h ++ firstn 12 tail) ++ skipn 12 tail) = magic_line ++ a) by (rewrite firstn_app, Nat.sub_diag, firstn_all; cbn [firstn]; apply app_nil_r).
  assert (S3 : skipn (length (magic_line ++ a) + 60) ((magic_line ++ a) ++ (id ++ h ++ firstn 12 tail) ++ skipn 12 tail) = skipn 12 tail).
  { rewrite <- skip_skip, S1. rewrite <- L60 at 1. rewrite skipn_app, skipn_all, Nat.sub_diag. reflexivity. }
  rewrite S1, S2, S3. assert (F60 : firstn 60 ((id ++ h ++ firstn 12 tail) ++ skipn 12 tail) = id ++ h ++ firstn 12 tail) by (rewrite <- L60 at 1; rewrite firstn_app, Nat.sub_diag, firstn_all; cbn [firstn]; apply app_nil_r).
  rewrite F60, L60. cbn [Nat.eqb]. rewrite NH. exists (a ++ id ++ h' ++ tail).
  split; [f_equal; rewrite <- !app_assoc; rewrite firstn_skipn; reflexivity|].
  split; [unfold redate in AR'; rewrite EB in AR'; exact AR'|].
  exists (a ++ id), (firstn 12 h), (firstn 12 h'), (skipn 12 h ++ tail).
  split; [rewrite ET, <- !app_assoc; rewrite (app_assoc (firstn 12 h)), firstn_skipn; reflexivity|].
  split; [rewrite <- SK, <- !app_assoc; rewrite (app_assoc (firstn 12 h')), firstn_skipn; reflexivity|].
  split; [rewrite firstn_length; lia|]. split; [exact PD12|]. rewrite app_length. lia.
Qed.
Print Assumptions C64_touch.

(** lib(pattern): the names of the members that match. *)
Theorem C64_glob :
  forall fnmatch qsort t l need fuel stack ar pattern, archive None 8 t l need -> (need <= stack)%Z -> length l < fuel -> (forall x, Permutation (qsort x) x) ->
  special pattern ->
  exists names, ar_glob fnmatch qsort fuel stack (Some (magic_line ++ t)) ar pattern = inl names /\
    Permutation names (map (fun e => ar ++ [c_lparen] ++ e_name e ++ [c_rparen]) (filter (fun e => fnmatch pattern (e_name e)) l)).
Proof.
  intros fnmatch qsort t l need fuel stack ar pattern AR NS LF Q PP. apply pattern_special in PP. unfold ar_glob. rewrite PP.
  destruct (C64_scan t l need AR) as (evs & F & SC). rewrite (SC _ _ _ fuel stack NS LF).
  assert (G : forall a, exists r, visit (glob_callback fnmatch ar pattern) a evs = (r, Done) /\ Permutation r (map (fun e => ar ++ [c_lparen] ++ e_name e ++ [c_rparen]) (filter (fun e => fnmatch pattern (e_name e)) l) ++ a)).
  { clear - F. induction F as [|e v l evs FT F IH]; intros a; [exists a; split; [reflexivity|apply Permutation_refl]|].
    destruct v as [[[[n s] p] z] d]. destruct FT as (-> & _). cbn [visit filter]. unfold glob_callback at 1. cbn [Z.eqb].
    destruct (fnmatch pattern (e_name e)).
    - destruct (IH ((ar ++ [c_lparen] ++ e_name e ++ [c_rparen]) :: a)) as (r & V & P). exists r. split; [exact V|]. cbn [map app]. eapply Permutation_trans; [exact P|]. apply Permutation_sym. apply Permutation_middle.
    - exact (IH a). }
  destruct (G []) as (r & V & P). rewrite V. exists (qsort r). split; [reflexivity|]. eapply Permutation_trans; [apply Q|]. rewrite app_nil_r in P. exact P.
Qed.
Print Assumptions C64_glob.
(** Other names are not looked for in the archive. *)
Theorem C64_glob_plain :
  forall fnmatch qsort fuel stack archive ar pattern, ~ special pattern -> ar_glob fnmatch qsort fuel stack archive ar pattern = inl [].
Proof. intros fnmatch qsort fuel stack archive ar pattern N. unfold ar_glob. destruct (ar_glob_pattern_p false pattern) eqn:E; [|reflexivity]. exfalso. apply N, pattern_special, E. Qed.
Print Assumptions C64_glob_plain.

(** Any file: if no size is negative, no table starts with an empty line and no number is too big, nothing outside of the buffers is touched and the scan ends. *)
Theorem C64_safe :
  forall file, sound file -> forall A f (a : A) fuel stack, length file < fuel ->
  snd (ar_scan f fuel stack (Some file) a) <> Corrupt /\ snd (ar_scan f fuel stack (Some file) a) <> Endless.
Proof.
  intros file SO A f a fuel stack LF. unfold ar_scan. destruct (str_eqb (firstn 8 file) magic); [|split; discriminate].
  pose proof (scan_safe A f file SO fuel stack None 8%Z a ltac:(lia) ltac:(lia)) as H. split; intros E; rewrite E in H; [exact H|]. lia.
Qed.
Print Assumptions C64_safe.

(** ** Where it goes wrong *)
Definition pad_to (w : nat) (s : str) : str := s ++ repeat c_sp (w - length s).
Definition member_text (id date size data : str) : str :=
  pad_to 16 id ++ (pad_to 12 date ++ pad_to 6 (s2l "0") ++ pad_to 6 (s2l "0") ++ pad_to 8 (s2l "644")) ++ pad_to 10 size ++ mark ++ data ++ (if Nat.odd (length data) then [c_nl] else []).

(** A size of -60 is scanned for ever. *)
Theorem C64_hang_refuted :
  exists file, forall fuel stack, ar_member_date (fun _ => Some file) fuel stack (s2l "lib.a(b.o)") = Bad Endless.
Proof.
  exists (magic_line ++ member_text (s2l "a.o/") (s2l "0") (s2l "-60") []). intros fuel stack. unfold ar_member_date. change (ar_parse_name (s2l "lib.a(b.o)")) with (s2l "lib.a", s2l "b.o"). cbv iota beta zeta.
  unfold ar_scan. match goal with |- context [scan Z ?f ?file fuel stack None 8 0%Z] => assert (G : forall fuel, scan Z f file fuel stack None 8 0%Z = (0%Z, Endless)) end.
  { clear fuel. induction fuel as [|fuel IH]; [reflexivity|]. cbn [scan]. revert IH. match goal with |- context [scan Z ?f ?file fuel] => generalize (scan Z f file fuel) as F end. intros F IH. vm_compute. exact IH. }
  rewrite G. reflexivity.
Qed.
Print Assumptions C64_hang_refuted.
(** A negative size of the table of names: alloca gets a negative size. *)
Theorem C64_negative_refuted :
  exists file, forall fuel stack, ar_member_date (fun _ => Some file) (S fuel) stack (s2l "lib.a(b.o)") = Bad Corrupt.
Proof. exists (magic_line ++ member_text (s2l "//") (s2l "0") (s2l "-1") []). intros fuel stack. vm_compute. reflexivity. Qed.
Print Assumptions C64_negative_refuted.
(** An archive of one ordinary file, called ARFILENAMES, that starts with an empty line: the byte before a buffer is read, and perhaps written. *)
Theorem C64_arfilenames_refuted :
  exists file, file = magic_line ++ member_text (s2l "ARFILENAMES/") (s2l "1700000000") (s2l "2") [c_nl; "x"%char] /\
  forall fuel, ar_member_date (fun _ => Some file) (S fuel) 8000000 (s2l "lib.a(b.o)") = Bad Corrupt.
Proof. eexists. split; [reflexivity|]. intros fuel. vm_compute. reflexivity. Qed.
Print Assumptions C64_arfilenames_refuted.
(** Names in the data of members use up the stack: an archive in BSD's format can have too many members, whatever the size of the stack. *)
Definition bsd_member : str := member_text (s2l "#1/20") (s2l "0") (s2l "20") (s2l "twenty_characters__o").
Theorem C64_stack_refuted :
  forall stack, (0 <= stack)%Z -> exists t l need, archive None 8 t l need /\ forall fuel, length l < fuel ->
  ar_member_date (fun _ => Some (magic_line ++ t)) fuel stack (s2l "lib.a(b.o)") = Bad No_stack.
Proof.
  intros stack SP.
  assert (AR : forall k pos, exists l, archive None pos (concat (repeat bsd_member k)) l (Z.of_nat k * 21) /\ length l = k).
  { induction k as [|k IH]; intros pos; [exists []; split; [constructor|reflexivity]|]. destruct (IH (pos + Z.of_nat (60 + 20 + 0))%Z) as (l & A & L).
    exists (mkentry (s2l "twenty_characters__o") false pos 20 (Some 0%Z) :: l). split; [|cbn [length]; rewrite L; reflexivity]. replace (Z.of_nat (S k) * 21)%Z with (21 + Z.of_nat k * 21)%Z by lia. cbn [repeat concat].
    change (bsd_member ++ concat (repeat bsd_member k)) with (pad_to 16 (s2l "#1/20") ++ (pad_to 12 (s2l "0") ++ pad_to 6 (s2l "0") ++ pad_to 6 (s2l "0") ++ pad_to 8 (s2l "644")) ++ pad_to 10 (s2l "20") ++ mark ++ s2l "twenty_characters__o" ++ [] ++ concat (repeat bsd_member k)).
    apply (a_entry None None pos _ (s2l "twenty_characters__o") false 21 _ (Some 0%Z) (s2l "20") _ (s2l "twenty_characters__o") []).
    - change 21%Z with (Z.of_nat (length (s2l "twenty_characters__o") + 0) + 1)%Z. eapply (k_data None _ (s2l "twenty_characters__o") 0 [] (s2l "20")); [reflexivity|discriminate|cbn; intuition discriminate| |reflexivity|split; [reflexivity|exists 11; reflexivity]].
      split; [discriminate|]. split; [|reflexivity]. repeat constructor; vm_compute; lia.
    - split; [reflexivity|]. exists (s2l "0"). eexists. split; [split; [discriminate|split; [constructor; [vm_compute; lia|constructor]|reflexivity]]|]. split; [cbn; lia|]. reflexivity.
    - split; [discriminate|]. split; [|reflexivity]. repeat constructor; vm_compute; lia.
    - split; [reflexivity|exists 8; reflexivity].
    - reflexivity.
    - exact A. }
  set (k := Z.to_nat (stack / 21 + 1)). destruct (AR k 8%Z) as (l & A & L). exists (concat (repeat bsd_member k)), l. eexists. split; [exact A|]. intros fuel LF. rewrite L in LF.
  assert (SK : (stack < Z.of_nat k * 21)%Z) by (unfold k; rewrite Z2Nat.id by (pose proof (Z.div_pos stack 21 SP ltac:(lia)); lia); pose proof (Z.mod_pos_bound stack 21 ltac:(lia)); pose proof (Z.div_mod stack 21 ltac:(lia)); lia).
  unfold ar_member_date. change (ar_parse_name (s2l "lib.a(b.o)")) with (s2l "lib.a", s2l "b.o"). cbv iota beta zeta. unfold ar_scan. change (firstn 8 (magic_line ++ concat (repeat bsd_member k))) with magic. rewrite str_eqb_refl.
  assert (G : forall k pre stack fuel, (0 <= stack)%Z -> (stack < Z.of_nat k * 21)%Z -> k < fuel -> Nat.even (length pre) = true ->
    scan Z (date_callback (s2l "b.o")) (pre ++ concat (repeat bsd_member k)) fuel stack None (Z.of_nat (length pre)) 0%Z = (0%Z, No_stack)).
  { clear. induction k as [|k IH]; intros pre stack fuel SP SK LF EV; [lia|]. destruct fuel as [|fuel]; [lia|].
    specialize (IH (pre ++ bsd_member) (stack - 21)%Z fuel). rewrite <- app_assoc in IH. cbn [repeat concat scan].
    replace ((Z.of_nat (length pre) <? 0)%Z) with false by (symmetry; apply Z.ltb_ge; lia). rewrite Nat2Z.id.
    assert (S1 : skipn (length pre) (pre ++ bsd_member ++ concat (repeat bsd_member k)) = bsd_member ++ concat (repeat bsd_member k)) by (rewrite skipn_app, skipn_all, Nat.sub_diag; reflexivity).
    rewrite S1. change (firstn 60 (bsd_member ++ concat (repeat bsd_member k))) with (firstn 60 bsd_member).
    change (skipn 60 (bsd_member ++ concat (repeat bsd_member k))) with (s2l "twenty_characters__o" ++ concat (repeat bsd_member k)).
    change (length (firstn 60 bsd_member) =? 60) with true. change (str_eqb (skipn 58 (firstn 60 bsd_member)) fmag) with true. cbn [negb orb].
    assert (NE : forall X (x y : X), match firstn 60 bsd_member with [] => x | _ => y end = y) by reflexivity. rewrite NE. clear NE.
    assert (MN : member_name stack None (firstn 16 (firstn 60 bsd_member)) (s2l "twenty_characters__o" ++ concat (repeat bsd_member k)) =
      if (stack <? 21)%Z then inl No_stack else inr (s2l "twenty_characters__o", true, false, (stack - 21)%Z)).
    { unfold member_name. change (strip_sp (firstn 16 (firstn 60 bsd_member))) with (s2l "#1/20"). change (starts c_slash (rev (s2l "#1/20"))) with false. cbv iota. change (upto_nul (s2l "#1/20")) with (s2l "#1/20").
      change (is_table (s2l "#1/20")) with false. change (starts c_sp (s2l "#1/20") || starts c_slash (s2l "#1/20")) with false. cbn [negb andb]. change (prefixb (s2l "#1/") (s2l "#1/20")) with true. cbv iota zeta.
      change (atoi (skipn 3 (s2l "#1/20"))) with 20%Z. change (20 <? 1)%Z with false. change (20 =? INT_MAX)%Z with false. cbv iota. change (20 + 1)%Z with 21%Z. destruct (stack <? 21)%Z; [reflexivity|].
      change (firstn (Z.to_nat 20) (s2l "twenty_characters__o" ++ concat (repeat bsd_member k))) with (s2l "twenty_characters__o"). reflexivity. }
    rewrite MN. destruct (Z.ltb_spec stack 21) as [LT|GE]; [reflexivity|].
    change (atol (skipn 48 (firstn 60 bsd_member))) with 20%Z. change (atol (skipn 16 (firstn 60 bsd_member))) with 0%Z. cbn [negb].
    change (date_callback (s2l "b.o") 0 (s2l "twenty_characters__o") false (Z.of_nat (length pre)) 20 0) with (0%Z, 0%Z). cbn [Z.eqb].
    assert (LP : Z.of_nat (length (pre ++ bsd_member)) = (Z.of_nat (length pre) + (60 + 20))%Z) by (rewrite app_length; change (length bsd_member) with 80; lia).
    assert (OD : Z.odd (Z.of_nat (length pre) + (60 + 20)) = false).
    { rewrite Z.odd_add. change (Z.odd (60 + 20)) with false. rewrite xorb_false_r. assert (ZO : forall n, Z.odd (Z.of_nat n) = Nat.odd n). { induction n as [|n IHn]; [reflexivity|]. rewrite Nat2Z.inj_succ, Z.odd_succ, Nat.odd_succ, <- Z.negb_odd, IHn. unfold Nat.odd. apply negb_involutive. }
      rewrite ZO. unfold Nat.odd. rewrite EV. reflexivity. }
    rewrite OD, <- LP. apply IH; [lia|lia|lia|]. rewrite app_length. change (length bsd_member) with (2 * 40). rewrite Nat.even_add, EV, Nat.even_mul. reflexivity. }
  change 8%Z with (Z.of_nat (length magic_line)). rewrite G; [reflexivity|exact SP|exact SK|exact LF|reflexivity].
Qed.
Print Assumptions C64_stack_refuted.

Definition a_file : str := magic_line ++ member_text (s2l "/") (s2l "1600000000") (s2l "4") (s2l "syms") ++ member_text (s2l "abcdefghijklm.o/") (s2l "1700000000") (s2l "2") (s2l "xy").
(** A member whose name has 15 characters is found under every longer name that starts so. *)
Theorem C64_prefix_refuted :
  exists t l need, a_file = magic_line ++ t /\ archive None 8 t l need /\ ~ In (s2l "abcdefghijklm.obj") (map e_name l) /\
  ar_member_date (fun _ => Some a_file) 10 8000000 (s2l "lib.a(abcdefghijklm.obj)") = Date 1700000000.
Proof.
  eexists. eexists. eexists. split; [reflexivity|]. split; [|split; [|vm_compute; reflexivity]].
  - match goal with |- archive None 8 ?t _ _ => change t with (pad_to 16 [c_slash] ++ (pad_to 12 (s2l "1600000000") ++ pad_to 6 (s2l "0") ++ pad_to 6 (s2l "0") ++ pad_to 8 (s2l "644")) ++ pad_to 10 (s2l "4") ++ mark ++ s2l "syms" ++ [] ++
      (pad_to 16 (s2l "abcdefghijklm.o" ++ [c_slash]) ++ (pad_to 12 (s2l "1700000000") ++ pad_to 6 (s2l "0") ++ pad_to 6 (s2l "0") ++ pad_to 8 (s2l "644")) ++ pad_to 10 (s2l "2") ++ mark ++ s2l "xy" ++ [] ++ [])) end.
    assert (N : forall s, s <> [] -> forallb isdigit s = true -> number s (dec_value s)).
    { intros s NE H. split; [exact NE|]. split; [|reflexivity]. apply Forall_forall. intros c I. rewrite forallb_forall in H. specialize (H c I). unfold isdigit in H. apply andb_true_iff in H. destruct H as [H1 H2]. apply Nat.leb_le in H1, H2. split; assumption. }
    eapply (a_entry _ _ _ _ _ _ _ _ (Some 1600000000%Z) (s2l "4")); [apply k_symbols; split; [reflexivity|exists 15; reflexivity]| |apply (N (s2l "4")); [discriminate|reflexivity]|split; [reflexivity|exists 9; reflexivity]|reflexivity|].
    + split; [reflexivity|]. exists (s2l "1600000000"). eexists. split; [apply (N (s2l "1600000000")); [discriminate|reflexivity]|]. split; [cbn; lia|reflexivity].
    + eapply (a_entry _ _ _ _ _ _ _ _ (Some 1700000000%Z) (s2l "2")); [eapply (k_slash _ _ (s2l "abcdefghijklm.o")); [discriminate| |discriminate|discriminate|split; [reflexivity|exists 0; reflexivity]]| |apply (N (s2l "2")); [discriminate|reflexivity]|split; [reflexivity|exists 9; reflexivity]|reflexivity|constructor].
      * intros c I. cbn in I. split; intros ->; intuition discriminate.
      * split; [reflexivity|]. exists (s2l "1700000000"). eexists. split; [apply (N (s2l "1700000000")); [discriminate|reflexivity]|]. split; [cbn; lia|reflexivity].
  - cbn [map e_name In]. intuition discriminate.
Qed.
Print Assumptions C64_prefix_refuted.
(** lib(x/) is the table of symbols; and lib( * ) matches it, too: the list has a name that is no member. *)
Theorem C64_symbols_refuted :
  ar_member_date (fun _ => Some a_file) 10 8000000 (s2l "lib.a(x/)") = Date 1600000000 /\
  forall fnmatch qsort, fnmatch (s2l "*") [] = true -> (forall x, Permutation (qsort x) x) ->
    exists names, ar_glob fnmatch qsort 10 8000000 (Some a_file) (s2l "lib.a") (s2l "*") = inl names /\ In (s2l "lib.a()") names /\ ar_name (s2l "lib.a()") = false.
Proof.
  split; [vm_compute; reflexivity|]. intros fnmatch qsort FM Q. unfold ar_glob. change (ar_glob_pattern_p false (s2l "*")) with true. cbv iota.
  assert (V : exists r, ar_scan (glob_callback fnmatch (s2l "lib.a") (s2l "*")) 10 8000000 (Some a_file) [] = (r, Done) /\ In (s2l "lib.a()") r).
  { destruct (C64_prefix_refuted) as (t & l & need & E & _). clear t l need E.
    unfold ar_scan. change (str_eqb (firstn 8 a_file) magic) with true. cbv iota. unfold glob_callback.
    vm_compute in FM. vm_compute. rewrite FM. match goal with |- context [if ?b then _ else _] => destruct b end; eexists; (split; [reflexivity|]); [right; left; reflexivity|left; reflexivity]. }
  destruct V as (r & V & IN). rewrite V. exists (qsort r). split; [reflexivity|]. split; [|reflexivity]. eapply Permutation_in; [apply Permutation_sym; apply Q|exact IN].
Qed.
Print Assumptions C64_symbols_refuted.
(** Touching a member of an archive with a time before 1970 writes over the ids of its owner. *)
Theorem C64_touch_1970_refuted :
  exists t t', ar_member_touch 10 8000000 (Some t) (s2l "a") (-1) = Touched t' /\ t = magic_line ++ member_text (s2l "a/") (s2l "5") (s2l "2") (s2l "xy") /\
    firstn 12 (skipn 36 t) = pad_to 6 (s2l "0") ++ pad_to 6 (s2l "0") /\ firstn 12 (skipn 36 t') = s2l "09551615 " ++ repeat c_sp 3.
Proof. eexists. eexists. split; [|split; [reflexivity|split; [reflexivity|]]]; [vm_compute; reflexivity|vm_compute; reflexivity]. Qed.
Print Assumptions C64_touch_1970_refuted.

(** ** Examples *)
Lemma some_split (file a b : str) : file = a ++ b -> In b (map (fun i => skipn i file) (seq 0 (S (length file)))).
Proof. intros ->. apply in_map_iff. exists (length a). split; [rewrite skipn_app, skipn_all, Nat.sub_diag; reflexivity|]. apply in_seq. rewrite app_length. lia. Qed.
Example C64_safe_ex : sound a_file.
Proof.
  assert (PF : forall p r, prefixb p (p ++ r) = true) by (induction p as [|c p IH]; intros r; cbn [app prefixb]; [reflexivity|rewrite eqc_refl; apply IH]).
  split; [|split].
  - intros a size b E L I. assert (X : forallb (fun r => negb (prefixb mark (skipn 10 r) && existsb (fun c => c =?c c_minus) (firstn 10 r))) (map (fun i => skipn i a_file) (seq 0 (S (length a_file)))) = true) by (vm_compute; reflexivity).
    rewrite forallb_forall in X. specialize (X _ (some_split _ _ _ E)). cbv beta in X.
    assert (S1 : skipn 10 (size ++ mark ++ b) = mark ++ b) by (rewrite <- L, skipn_app, skipn_all, Nat.sub_diag; reflexivity).
    assert (S2 : firstn 10 (size ++ mark ++ b) = size) by (rewrite <- L, firstn_app, Nat.sub_diag, firstn_all; cbn [firstn]; apply app_nil_r).
    rewrite S1, S2, PF in X. assert (Y : existsb (fun c => c =?c c_minus) size = true) by (apply existsb_exists; exists c_minus; split; [exact I|apply eqc_refl]). rewrite Y in X. discriminate.
  - intros a b E. assert (X : forallb (fun r => negb (prefixb (mark ++ [c_nl]) r)) (map (fun i => skipn i a_file) (seq 0 (S (length a_file)))) = true) by (vm_compute; reflexivity).
    rewrite forallb_forall in X. specialize (X _ (some_split _ _ _ E)). cbv beta in X. replace (mark ++ c_nl :: b) with ((mark ++ [c_nl]) ++ b) in X by (rewrite <- app_assoc; reflexivity). rewrite PF in X. discriminate.
  - intros a x ds b E _ _. assert (X : forallb (fun r => negb (prefixb (s2l "#1/") r)) (map (fun i => skipn i a_file) (seq 0 (S (length a_file)))) = true) by (vm_compute; reflexivity).
    rewrite forallb_forall in X. specialize (X _ (some_split _ _ _ E)). cbv beta in X. rewrite PF in X. discriminate.
Qed.
(** A GNU archive with a table of names. *)
Definition g_table : str := s2l "some_long_file.o/" ++ c_nl :: s2l "another_long_name.o/" ++ [c_nl].
Definition g_text : str := member_text (s2l "//") [] (s2l "39") g_table ++ member_text (s2l "/18") (s2l "77") (s2l "3") (s2l "abc") ++ member_text (s2l "b.o/") (s2l "5") (s2l "0") [].
Definition g_entries : list entry := [mkentry [c_slash] true 8 39 None; mkentry (s2l "another_long_name.o") false 108 3 (Some 77%Z); mkentry (s2l "b.o") true 172 0 (Some 5%Z)].
Example C64_archive_ex : archive None 8 g_text g_entries 40 /\ base (s2l "dir/another_long_name.o") (s2l "another_long_name.o") /\ clear g_entries (s2l "another_long_name.o") /\
  ar_member_date (fun _ => Some (magic_line ++ g_text)) 4 40 (s2l "x.a(dir/another_long_name.o)") = Date 77.
Proof.
  assert (N : forall s, s <> [] -> forallb isdigit s = true -> number s (dec_value s)).
  { intros s NE H. split; [exact NE|]. split; [|reflexivity]. apply Forall_forall. intros c I. rewrite forallb_forall in H. specialize (H c I). unfold isdigit in H. apply andb_true_iff in H. destruct H as [H1 H2]. apply Nat.leb_le in H1, H2. split; assumption. }
  split; [|split; [|split; [|vm_compute; reflexivity]]].
  - set (h := fun d => pad_to 12 d ++ pad_to 6 (s2l "0") ++ pad_to 6 (s2l "0") ++ pad_to 8 (s2l "644")).
    change g_text with (pad_to 16 (s2l "//") ++ h [] ++ pad_to 10 (s2l "39") ++ mark ++ g_table ++ [c_nl] ++
      (pad_to 16 (c_slash :: s2l "18") ++ h (s2l "77") ++ pad_to 10 (s2l "3") ++ mark ++ s2l "abc" ++ [c_nl] ++ (pad_to 16 (s2l "b.o" ++ [c_slash]) ++ h (s2l "5") ++ pad_to 10 (s2l "0") ++ mark ++ [] ++ [] ++ []))).
    change 40%Z with (40 + (0 + (0 + 0)))%Z. unfold g_entries.
    refine (a_entry None (Some g_table) 8 _ [c_slash] true 40 _ None (s2l "39") _ g_table [c_nl] _ _ _ _ _ (N (s2l "39") _ _) _ eq_refl _); [|split; [reflexivity|exact I]|discriminate|reflexivity|split; [reflexivity|exists 8; reflexivity]|].
    + refine (k_names None g_table [c_slash] _ (or_introl eq_refl) _ _ _); [split; [reflexivity|exists 14; reflexivity]|discriminate|vm_compute; discriminate].
    + refine (a_entry _ (Some g_table) 108 _ (s2l "another_long_name.o") false 0 _ (Some 77%Z) (s2l "3") _ (s2l "abc") [c_nl] _ _ _ _ _ (N (s2l "3") _ _) _ eq_refl _); [| |discriminate|reflexivity|split; [reflexivity|exists 9; reflexivity]|].
      * refine (k_table _ _ (s2l "some_long_file.o/" ++ [c_nl]) (s2l "another_long_name.o") [c_slash] [] (s2l "18") _ eq_refl _ _ (or_introl eq_refl) (N (s2l "18") _ _) _); [discriminate| |discriminate|reflexivity|split; [reflexivity|exists 13; reflexivity]].
        intros c I. cbn in I. split; intros ->; intuition discriminate.
      * split; [reflexivity|]. exists (s2l "77"). eexists. split; [exact (N (s2l "77") ltac:(discriminate) eq_refl)|]. split; [cbn; lia|reflexivity].
      * refine (a_entry _ (Some g_table) 172 _ (s2l "b.o") true 0 _ (Some 5%Z) (s2l "0") _ [] [] _ _ _ _ _ (N (s2l "0") _ _) _ eq_refl _); [| |discriminate|reflexivity|split; [reflexivity|exists 9; reflexivity]|constructor].
        -- refine (k_slash _ _ (s2l "b.o") _ _ _ _ _ _); [discriminate| |discriminate|discriminate|split; [reflexivity|exists 12; reflexivity]]. intros c I. cbn in I. split; intros ->; intuition discriminate.
        -- split; [reflexivity|]. exists (s2l "5"). eexists. split; [exact (N (s2l "5") ltac:(discriminate) eq_refl)|]. split; [cbn; lia|reflexivity].
  - split; [cbn; intuition discriminate|]. right. exists (s2l "dir"). reflexivity.
  - intros e [<- |[<- |[<- |[]]]] S; [left; cbn; lia|discriminate|left; cbn; lia].
Qed.
Definition touched : str := match ar_member_touch 4 40 (Some (magic_line ++ g_text)) (s2l "b.o") 1234567890 with Touched t => t | _ => [] end.
Example C64_touch_ex : ar_member_date (fun _ => Some touched) 4 40 (s2l "x.a(b.o)") = Date 1234567890 /\ ar_member_date (fun _ => Some touched) 4 40 (s2l "x.a(another_long_name.o)") = Date 77.
Proof. split; vm_compute; reflexivity. Qed.

(** ** The instances of W_Ar, derived from the theorems *)
Lemma w_number s : s <> [] -> forallb isdigit s = true -> number s (dec_value s).
Proof. intros NE H. split; [exact NE|]. split; [|reflexivity]. apply Forall_forall. intros c I. rewrite forallb_forall in H. specialize (H c I). unfold isdigit in H. apply andb_true_iff in H. destruct H as [H1 H2]. apply Nat.leb_le in H1, H2. split; assumption. Qed.
Lemma w_dated s : s <> [] -> forallb isdigit s = true -> length s < 12 -> dated (w_h s) (Some (dec_value s)).
Proof.
  intros NE D L. split; [unfold w_h, w_pad; rewrite !app_length, !repeat_length; cbn [length s2l list_ascii_of_string]; lia|].
  destruct (12 - length s) as [|k] eqn:K; [lia|]. exists s. eexists. split; [exact (w_number s NE D)|]. split; [exact L|]. unfold w_h, w_pad at 1. rewrite K, <- app_assoc. reflexivity.
Qed.
Lemma w_padded w s : length s <= w -> padded w s (w_pad w s).
Proof. intros L. split; [unfold w_pad; rewrite app_length, repeat_length; lia|]. eexists. reflexivity. Qed.
Lemma w_entry table table' pos id n short need d s data pad rest l needs :
  kind table data (w_pad 16 id) n short need table' -> (d <> [] /\ forallb isdigit d = true /\ length d < 12) -> (s <> [] /\ forallb isdigit s = true /\ length s <= 10) ->
  dec_value s = Z.of_nat (length data) -> length pad = length data mod 2 -> archive table' (pos + Z.of_nat (60 + length data + length pad)) rest l needs ->
  archive table pos (w_member id d s data pad rest) (mkentry n short pos (Z.of_nat (length data)) (Some (dec_value d)) :: l) (need + needs).
Proof.
  intros K (D1 & D2 & D3) (S1 & S2 & S3) E P R. unfold w_member. eapply a_entry; [exact K|exact (w_dated d D1 D2 D3)| |exact (w_padded 10 s S3)|exact P|exact R].
  rewrite <- E. exact (w_number s S1 S2).
Qed.
Ltac w_side := split; [discriminate|split; [reflexivity|cbn; lia]].
Ltac w_chars := let c := fresh in let I := fresh in intros c I; cbn in I; split; intros ->; intuition discriminate.
Lemma w_archive : archive None 8 w_text w_entries w_need.
Proof.
  change w_need with (0 + (40 + (0 + (0 + (0 + (16 + (0 + 0)))))))%Z. unfold w_text, w_entries.
  apply (w_entry None None 8 [c_slash] [] true 0 (s2l "1600000000") (s2l "4") (s2l "syms") []); [apply k_symbols; apply w_padded; cbn; lia|w_side|w_side|reflexivity|reflexivity|].
  apply (w_entry None (Some w_table) 72 [c_slash; c_slash] [c_slash] true 40 (s2l "0") (s2l "39") w_table [c_nl]);
    [apply (k_names None w_table [c_slash]); [left; reflexivity|apply w_padded; cbn; lia|discriminate|vm_compute; discriminate]|w_side|w_side|reflexivity|reflexivity|].
  apply (w_entry (Some w_table) (Some w_table) 172 (c_slash :: s2l "18") (s2l "another_long_name.o") false 0 (s2l "77") (s2l "3") (s2l "abc") [c_nl]);
    [apply (k_table _ _ (s2l "some_long_file.o/" ++ [c_nl]) (s2l "another_long_name.o") [c_slash] [] (s2l "18")); [reflexivity|discriminate|w_chars|left; reflexivity|apply (w_number (s2l "18")); [discriminate|reflexivity]|apply w_padded; cbn; lia]|w_side|w_side|reflexivity|reflexivity|].
  apply (w_entry (Some w_table) (Some w_table) 236 (s2l "b.o" ++ [c_slash]) (s2l "b.o") true 0 (s2l "5") (s2l "0") [] []);
    [apply k_slash; [discriminate|w_chars|discriminate|discriminate|apply w_padded; cbn; lia]|w_side|w_side|reflexivity|reflexivity|].
  apply (w_entry (Some w_table) (Some w_table) 296 (s2l "bare") (s2l "bare") true 0 (s2l "6") (s2l "1") (s2l "y") [c_nl]);
    [apply k_bare; [discriminate|w_chars|discriminate|intros r E; apply (f_equal (@rev ascii)) in E; rewrite rev_app_distr in E; discriminate|apply w_padded; cbn; lia]|w_side|w_side|reflexivity|reflexivity|].
  apply (w_entry (Some w_table) (Some w_table) 358 (s2l "#1/" ++ s2l "15") (s2l "bsd long.name") false 16 (s2l "10000000000") (s2l "16") w_bsd []);
    [apply (k_data _ _ (s2l "bsd long.name") 2 (s2l "x") (s2l "15")); [reflexivity|discriminate|cbn; intuition discriminate|apply (w_number (s2l "15")); [discriminate|reflexivity]|reflexivity|apply w_padded; cbn; lia]|w_side|w_side|reflexivity|reflexivity|].
  apply (w_entry (Some w_table) (Some w_table) 434 (s2l "b.o" ++ [c_slash]) (s2l "b.o") true 0 (s2l "9") (s2l "2") (s2l "zz") []);
    [apply k_slash; [discriminate|w_chars|discriminate|discriminate|apply w_padded; cbn; lia]|w_side|w_side|reflexivity|reflexivity|constructor].
Qed.
Lemma w_fits evs : Forall2 fits w_entries evs -> evs = map (fun e => (e_name e, e_short e, e_pos e, e_size e, match e_date e with Some d => d | None => 0%Z end)) w_entries.
Proof.
  assert (G : forall l evs, Forall2 fits l evs -> (forall e, In e l -> e_date e <> None) -> evs = map (fun e => (e_name e, e_short e, e_pos e, e_size e, match e_date e with Some d => d | None => 0%Z end)) l).
  { clear. intros l evs F. induction F as [|e v l evs FT F IH]; intros D; [reflexivity|]. cbn [map]. rewrite <- IH by (intros x I; apply D; right; exact I).
    destruct v as [[[[n s] p] z] d]. destruct FT as (-> & -> & -> & -> & H). specialize (D e (or_introl eq_refl)). destruct (e_date e) as [x|]; [rewrite H; reflexivity|congruence]. }
  intros F. apply (G _ _ F). intros e [<- |[<- |[<- |[<- |[<- |[<- |[<- |[]]]]]]]]; discriminate.
Qed.
Lemma w_clear b : clear w_entries b.
Proof. intros e [<- |[<- |[<- |[<- |[<- |[<- |[<- |[]]]]]]]] S; try discriminate S; left; cbn; lia. Qed.
Example C64_w_scan : w_scan /\ w_scan_stop.
Proof.
  destruct (C64_scan _ _ _ w_archive) as (evs & F & SC). apply w_fits in F. subst evs. unfold w_scan, w_scan_stop, w_file.
  split; (rewrite SC; [reflexivity|discriminate|cbn; lia]).
Qed.
Lemma w_date_at t l need mem b l1 e l2 d : archive None 8 t l need -> (need <= w_need)%Z -> length l < 8 -> base mem b -> clear l b ->
  l = l1 ++ e :: l2 -> e_name e = b -> e_date e = Some d -> (forall x, In x l1 -> e_name x <> b) -> w_date_of (magic_line ++ t) mem = Date d.
Proof.
  intros A N L B C E EB ED NO. unfold w_date_of.
  refine (proj1 (C64_date _ (s2l "x.a") t l need mem b 8 w_need _ A N L _ B C) l1 e l2 d E EB ED NO); [reflexivity|cbn; intuition discriminate].
Qed.
Lemma w_absent mem b : base mem b -> (forall e, In e w_entries -> e_name e <> b) -> w_date_of w_file mem = Absent.
Proof.
  intros B NO. unfold w_date_of.
  refine (proj2 (C64_date _ (s2l "x.a") w_text w_entries w_need mem b 8 w_need _ w_archive _ _ _ B (w_clear b)) NO); [reflexivity|discriminate|cbn; lia|cbn; intuition discriminate].
Qed.
Ltac w_in := let x := fresh in intros x; cbn [In firstn w_entries]; intuition (subst; discriminate).
Ltac w_at k dir name := let e := eval cbv in (nth k w_entries (mkentry [] true 0 0 None)) in
  eapply (w_date_at w_text w_entries w_need _ name (firstn k w_entries) (nth k w_entries (mkentry [] true 0 0 None)) (skipn (S k) w_entries));
  [exact w_archive|discriminate|cbn; lia|split; [cbn; intuition discriminate|dir]|apply w_clear|reflexivity|reflexivity|reflexivity|w_in].
Example C64_w_dates : w_dates.
Proof.
  unfold w_dates. split; [|split; [|split; [|split; [|split; [|split]]]]].
  - w_at 2 ltac:(right; exists (s2l "dir"); reflexivity) (s2l "another_long_name.o").
  - w_at 3 ltac:(left; reflexivity) (s2l "b.o").
  - w_at 4 ltac:(left; reflexivity) (s2l "bare").
  - w_at 5 ltac:(right; exists (s2l "d/e"); reflexivity) (s2l "bsd long.name").
  - apply (w_absent _ (s2l "another_long_name.obj")); [split; [cbn; intuition discriminate|left; reflexivity]|w_in].
  - apply (w_absent _ (s2l "another_long_na")); [split; [cbn; intuition discriminate|left; reflexivity]|w_in].
  - apply (w_absent _ (s2l "bar")); [split; [cbn; intuition discriminate|left; reflexivity]|w_in].
Qed.
Lemma w_around (a old new z : str) : length old = 12 -> length new = 12 -> length a + 8 = 252 ->
  length (magic_line ++ a ++ new ++ z) = length (magic_line ++ a ++ old ++ z) /\
  firstn 252 (magic_line ++ a ++ new ++ z) = firstn 252 (magic_line ++ a ++ old ++ z) /\ skipn 264 (magic_line ++ a ++ new ++ z) = skipn 264 (magic_line ++ a ++ old ++ z).
Proof.
  intros LO LN LA. assert (L1 : length (magic_line ++ a) = 252) by (rewrite app_length; change (length magic_line) with 8; lia).
  assert (G : forall x, length x = 12 -> firstn 252 (magic_line ++ a ++ x ++ z) = magic_line ++ a /\ skipn 264 (magic_line ++ a ++ x ++ z) = z).
  { intros x LX. split.
    - rewrite app_assoc, <- L1, firstn_app, Nat.sub_diag, firstn_all. cbn [firstn]. apply app_nil_r.
    - assert (L2 : length ((magic_line ++ a) ++ x) = 264) by (rewrite app_length, L1, LX; reflexivity). rewrite app_assoc, (app_assoc _ x z), <- L2, skipn_app, skipn_all, Nat.sub_diag. reflexivity. }
  destruct (G old LO) as [F1 K1]. destruct (G new LN) as [F2 K2]. split; [rewrite !app_length, LO, LN; reflexivity|]. split; congruence.
Qed.
Example C64_w_touch : w_touch /\ w_touch_none.
Proof.
  split.
  - assert (B : base (s2l "b.o") (s2l "b.o")) by (split; [cbn; intuition discriminate|left; reflexivity]).
    assert (N1 : forall x, In x (firstn 3 w_entries) -> e_name x <> s2l "b.o") by w_in.
    destruct (proj1 (C64_touch w_text w_entries w_need (s2l "b.o") (s2l "b.o") 8 w_need 12345678901 w_archive ltac:(discriminate) ltac:(cbn; lia) B (w_clear _) ltac:(lia))
      (firstn 3 w_entries) (nth 3 w_entries (mkentry [] true 0 0 None)) (skipn 4 w_entries) eq_refl eq_refl N1) as (t' & R & A & a & old & new & z & E1 & E2 & LO & (ns & NN & PN) & LA). assert (LN : length new = 12) by (destruct PN; assumption).
    exists (magic_line ++ t'). split; [exact R|]. change (e_pos (nth 3 w_entries (mkentry [] true 0 0 None))) with 236%Z in LA.
    destruct (w_around a old new z LO LN ltac:(lia)) as (X1 & X2 & X3). unfold w_file. rewrite E1, E2. split; [exact X1|]. split; [exact X2|]. split; [exact X3|]. rewrite <- E2.
    eapply (w_date_at t' _ _ (s2l "b.o") (s2l "b.o")); [exact A|discriminate|cbn; lia|exact B| |reflexivity|reflexivity|reflexivity|exact N1].
    intros e I S. cbn in I. intuition (subst; try discriminate S; left; cbn; lia).
  - refine (proj2 (C64_touch w_text w_entries w_need (s2l "nobody") (s2l "nobody") 8 w_need 5 w_archive _ _ _ (w_clear _) _) _); [discriminate|cbn; lia|split; [cbn; intuition discriminate|left; reflexivity]|lia|w_in].
Qed.
Example C64_w_glob : w_glob.
Proof.
  destruct (C64_glob w_fnmatch (fun l => l) w_text w_entries w_need 8 w_need (s2l "x.a") (s2l "b*") w_archive ltac:(discriminate) ltac:(cbn; lia) (fun x => Permutation_refl x)
    (ex_intro _ (s2l "b") (conj (wh_one "b"%char [] ltac:(discriminate) wh_nil) (or_introl (ex_intro _ "*"%char (ex_intro _ [] (conj eq_refl (or_intror eq_refl)))))))) as (names & E & P).
  exists names. split; [exact E|exact P].
Qed.
Lemma v_archive : archive None 8 v_text v_entries v_need.
Proof.
  change v_need with (322 + (0 + (22 + (0 + (0 + (13 + (0 + 0)))))))%Z. unfold v_text, v_entries.
  apply (w_entry None (Some v_table) 8 [c_slash; c_slash] [c_slash] true 322 (s2l "0") (s2l "321") v_table [c_nl]);
    [apply (k_names None v_table [c_slash]); [left; reflexivity|apply w_padded; cbn; lia|discriminate|vm_compute; discriminate]|w_side|w_side|reflexivity|reflexivity|].
  apply (w_entry (Some v_table) (Some v_table) 390 (c_slash :: s2l "301") (s2l "noslash_name_long.o") false 0 (s2l "10000000000") (s2l "2") (s2l "zz") []);
    [apply (k_table _ _ (repeat "p"%char 300 ++ [c_nl]) (s2l "noslash_name_long.o") [] [] (s2l "301")); [reflexivity|discriminate|w_chars| |apply (w_number (s2l "301")); [discriminate|reflexivity]|apply w_padded; cbn; lia]|w_side|w_side|reflexivity|reflexivity|].
  { right. split; [reflexivity|]. intros r E. apply (f_equal (@rev ascii)) in E. rewrite rev_app_distr in E. discriminate. }
  apply (w_entry (Some v_table) (Some v_table2) 452 [c_slash; c_slash] [c_slash] true 22 (s2l "0") (s2l "21") v_table2 [c_nl]);
    [apply (k_names (Some v_table) v_table2 [c_slash]); [left; reflexivity|apply w_padded; cbn; lia|discriminate|vm_compute; discriminate]|w_side|w_side|reflexivity|reflexivity|].
  apply (w_entry (Some v_table2) (Some v_table2) 534 (c_slash :: s2l "0") (s2l "second_table_name.o") false 0 (s2l "3") (s2l "0") [] []);
    [apply (k_table _ _ [] (s2l "second_table_name.o") [c_slash] [] (s2l "0")); [reflexivity|discriminate|w_chars|left; reflexivity|apply (w_number (s2l "0")); [discriminate|reflexivity]|apply w_padded; cbn; lia]|w_side|w_side|reflexivity|reflexivity|].
  apply (w_entry (Some v_table2) (Some v_table2) 594 (s2l "abcdefghijklmn" ++ [c_slash]) (s2l "abcdefghijklmn") true 0 (s2l "4") (s2l "0") [] []);
    [apply k_slash; [discriminate|w_chars|discriminate|discriminate|apply w_padded; cbn; lia]|w_side|w_side|reflexivity|reflexivity|].
  apply (w_entry (Some v_table2) (Some v_table2) 654 (s2l "#1/" ++ s2l "12") (s2l "twelve_chars") false 13 (s2l "8") (s2l "12") (s2l "twelve_chars") []);
    [apply (k_data _ _ (s2l "twelve_chars") 0 [] (s2l "12")); [reflexivity|discriminate|cbn; intuition discriminate|apply (w_number (s2l "12")); [discriminate|reflexivity]|reflexivity|apply w_padded; cbn; lia]|w_side|w_side|reflexivity|reflexivity|].
  apply (w_entry (Some v_table2) (Some v_table2) 726 (c_slash :: s2l "0") (s2l "second_table_name.o") false 0 (s2l "11") (s2l "0") [] []);
    [apply (k_table _ _ [] (s2l "second_table_name.o") [c_slash] [] (s2l "0")); [reflexivity|discriminate|w_chars|left; reflexivity|apply (w_number (s2l "0")); [discriminate|reflexivity]|apply w_padded; cbn; lia]|w_side|w_side|reflexivity|reflexivity|constructor].
Qed.
Lemma dated_fits l evs : Forall2 fits l evs -> (forall e, In e l -> e_date e <> None) -> evs = map (fun e => (e_name e, e_short e, e_pos e, e_size e, match e_date e with Some d => d | None => 0%Z end)) l.
Proof.
  intros F. induction F as [|e v l evs FT F IH]; intros D; [reflexivity|]. cbn [map]. rewrite <- IH by (intros x I; apply D; right; exact I).
  destruct v as [[[[n s] p] z] d]. destruct FT as (-> & -> & -> & -> & H). specialize (D e (or_introl eq_refl)). destruct (e_date e) as [x|]; [rewrite H; reflexivity|congruence].
Qed.
Lemma v_clear b : clear v_entries b.
Proof. intros e I S. cbn [In v_entries] in I. intuition (subst; try discriminate S; left; cbn; lia). Qed.
Lemma u_archive : archive None 8 u_text [mkentry (s2l "abcdefghijklmnop") true 8 0 (Some 4%Z)] 0.
Proof.
  change 0%Z with (0 + 0)%Z at 2. apply (w_entry None None 8 (s2l "abcdefghijklmnop") (s2l "abcdefghijklmnop") true 0 (s2l "4") (s2l "0") [] []);
    [apply k_bare; [discriminate|w_chars|discriminate|intros r E; apply (f_equal (@rev ascii)) in E; rewrite rev_app_distr in E; discriminate|apply w_padded; cbn; lia]|w_side|w_side|reflexivity|reflexivity|constructor].
Qed.
Example C64_v_scan : v_scan /\ u_scan.
Proof.
  split.
  - destruct (C64_scan _ _ _ v_archive) as (evs & F & SC). apply dated_fits in F; [|intros e I; cbn [In v_entries] in I; intuition (subst; discriminate)]. subst evs. unfold v_scan, v_file. rewrite SC; [reflexivity|discriminate|cbn; lia].
  - destruct (C64_scan _ _ _ u_archive) as (evs & F & SC). apply dated_fits in F; [|intros e [<- |[]]; discriminate]. subst evs. unfold u_scan. rewrite SC; [reflexivity|discriminate|cbn; lia].
Qed.
Example C64_v_absent : v_absent.
Proof.
  refine (proj2 (C64_date _ (s2l "x.a") v_text v_entries v_need (s2l "abcdefghijklmno") (s2l "abcdefghijklmno") 8 v_need _ v_archive _ _ _ _ (v_clear _)) _); [reflexivity|discriminate|cbn; lia|cbn; intuition discriminate|split; [cbn; intuition discriminate|left; reflexivity]|].
  intros x I. cbn [In v_entries] in I. intuition (subst; discriminate).
Qed.
Example C64_v_touch : v_touch.
Proof.
  assert (B : base (s2l "noslash_name_long.o") (s2l "noslash_name_long.o")) by (split; [cbn; intuition discriminate|left; reflexivity]).
  assert (N1 : forall x, In x (firstn 1 v_entries) -> e_name x <> s2l "noslash_name_long.o") by (intros x [<- |[]]; discriminate).
  destruct (proj1 (C64_touch v_text v_entries v_need _ _ 8 v_need 5 v_archive ltac:(discriminate) ltac:(cbn; lia) B (v_clear _) ltac:(lia))
    (firstn 1 v_entries) (nth 1 v_entries (mkentry [] true 0 0 None)) (skipn 2 v_entries) eq_refl eq_refl N1) as (t' & R & _ & a & old & new & z & _ & E2 & _ & (s & NS & PN) & LA).
  exists (magic_line ++ t'), s. split; [exact R|]. split; [exact NS|]. change (e_pos (nth 1 v_entries (mkentry [] true 0 0 None))) with 390%Z in LA.
  assert (L1 : length (magic_line ++ a) = 406) by (rewrite app_length; change (length magic_line) with 8; lia). assert (L2 : length new = 12) by (destruct PN; assumption).
  assert (X : firstn 12 (skipn 406 (magic_line ++ t')) = new); [|rewrite X; exact PN].
  rewrite E2, app_assoc, <- L1, skipn_app, skipn_all, Nat.sub_diag. change (skipn 0 (new ++ z)) with (new ++ z). change ([] ++ new ++ z) with (new ++ z). rewrite <- L2, firstn_app, firstn_all, Nat.sub_diag. apply app_nil_r.
Qed.
Example C64_w_damaged : w_damaged.
Proof.
  destruct C64_damaged as [D1 D2]. split; [|split].
  - destruct (D1 _ _ _ w_junk w_archive) as (evs & F & SC); [split; [discriminate|right; exists (w_pad 58 (s2l "c.o/")), (s2l "xx"), []; repeat split; discriminate]|]. apply w_fits in F. subst evs. rewrite SC; [reflexivity|discriminate|cbn; lia].
  - destruct (D1 _ _ _ (s2l "c.o/") w_archive) as (evs & F & SC); [split; [discriminate|left; cbn; lia]|]. apply w_fits in F. subst evs. rewrite SC; [reflexivity|discriminate|cbn; lia].
  - apply D2. intros t. discriminate.
Qed.
Example C64_w_plain : w_plain.
Proof.
  apply C64_glob_plain. intros (a & W & H). destruct W as [|x a ND W|x a W].
  - destruct H as [(d & b & E & D)|(m & b & E & M)]; cbn in E; injection E as E1 E2; [destruct D; congruence|discriminate].
  - destruct W as [|y a ND2 W|y a W]; destruct H as [(d & b & E & D)|(m & b & E & M)]; cbn in E; injection E as E1 E2; subst; try discriminate; try congruence; try (destruct D; discriminate);
      destruct a; cbn in *; try discriminate; try congruence.
  - destruct H as [(d & b & E & D)|(m & b & E & M)]; cbn in E; injection E as E1 E2; discriminate.
Qed.
