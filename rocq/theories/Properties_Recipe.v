(** C53, C54, C55: the text of recipes and the output of commands. *)
From Verif Require Import Base M_Cmd M_Recipe S_Line S_Recipe P_Recipe P_Fold.
From Coq Require Import Lia.
Open Scope string_scope.
Open Scope list_scope.
Open Scope nat_scope.

(** C53.  The scan of a line ends and what it writes fits in the line. *)
Theorem C53_fits t : exists t', collapse t = Some t' /\ length t' <= length t.
Proof. apply in_line_total; cbn; lia. Qed.
(** A line is changed only inside of references: there white space with a continuation in it becomes one
    space. *)
Theorem C53_tidy t : ~ doubled t -> collapse t = Some (tidy Out t).
Proof. apply collapse_tidy. Qed.
Lemma continued_doubled t : doubled t -> continued t.
Proof. intros (a & b & ->). exists (a ++ [c_bslash]), b. rewrite <- app_assoc. reflexivity. Qed.
(** A line without continuations is not changed. *)
Theorem C53_plain t : ~ continued t -> collapse t = Some t.
Proof.
  intros C. rewrite collapse_tidy by (intros D; exact (C (continued_doubled t D))). f_equal. exact (proj1 (tidy_same t C)).
Qed.
(** The text before the first dollar sign is not changed. *)
Theorem C53_outside a b : ~ doubled (a ++ b) -> ~ List.In c_dollar a ->
  exists x, collapse b = Some x /\ collapse (a ++ b) = Some (a ++ x).
Proof.
  intros D N. exists (tidy Out b). split.
  - apply collapse_tidy. intros (x & y & ->). apply D. exists (a ++ x), y. rewrite app_assoc. reflexivity.
  - rewrite collapse_tidy by exact D. f_equal. apply tidy_plain. exact N.
Qed.
(** Nothing but white space and backslashes is lost or added. *)
Theorem C53_text t t' : ~ doubled t -> collapse t = Some t' -> filter solid t' = filter solid t.
Proof.
  intros D. rewrite collapse_tidy by exact D. intros H. injection H as <-. exact (proj1 (tidy_solid (length t) t (le_n _))).
Qed.
(** The recipe itself is changed, and scanned again for every target of the rule: all get the same. *)
Theorem C53_again t t' : ~ doubled t -> collapse t = Some t' -> collapse t' = Some t'.
Proof.
  intros D. rewrite collapse_tidy by exact D. intros H. injection H as <-.
  rewrite collapse_tidy by (apply tidy_doubled; exact D). f_equal. apply tidy_idem.
Qed.
Definition c_bsnl : str := [c_bslash; c_nl].
(** A substitution of the shell, written with two dollar signs, is taken for a reference: its text is changed,
    even between single quotes. *)
Theorem C53_shell_refuted : exists t t', t = s2l "echo $$(echo 'a" ++ c_bsnl ++ s2l "  b')" /\
  collapse t = Some t' /\ t' = s2l "echo $$(echo 'a b')".
Proof. eexists. eexists. split; [reflexivity|]. split; vm_compute; reflexivity. Qed.
(** The backslashes are counted in the line while it is being moved: after a continuation, two backslashes
    before a newline are taken for another one (in a .ONESHELL recipe, for other recipes are cut there). *)
Theorem C53_doubled_refuted : exists t, t = s2l "$(x" ++ c_bsnl ++ s2l "y" ++ [c_bslash] ++ c_bsnl ++ s2l "z)" /\
  collapse t = Some (s2l "$(x y" ++ [c_bslash; c_sp] ++ s2l "z)") /\ tidy Out t = s2l "$(x y" ++ [c_bslash] ++ c_bsnl ++ s2l "z)".
Proof. eexists. split; [reflexivity|]. split; vm_compute; reflexivity. Qed.
(** For the same reason the second target of a rule may get another recipe than the first. *)
Theorem C53_again_refuted : exists t t' t'', collapse t = Some t' /\ collapse t' = Some t'' /\ t' <> t'' /\
  t = s2l "$(x" ++ c_bsnl ++ s2l "y" ++ [c_bslash; c_bslash] ++ c_bsnl ++ s2l "z)".
Proof.
  eexists. eexists. eexists. split; [|split; [|split; [|reflexivity]]]; [vm_compute; reflexivity|vm_compute; reflexivity|discriminate].
Qed.
Example C53_ex : collapse (s2l "echo $(subst a,  " ++ c_bsnl ++ [c_tab] ++ s2l "b,(c)" ++ c_bsnl ++ s2l ") \" ++ [c_nl; c_tab] ++ s2l "x") =
  Some (s2l "echo $(subst a, b,(c) ) \" ++ [c_nl; c_tab] ++ s2l "x").
Proof. vm_compute. reflexivity. Qed.
Example C53_ex_hyp : ~ doubled (s2l "echo $(subst a,  " ++ c_bsnl ++ s2l "b)") /\ continued (s2l "echo $(subst a,  " ++ c_bsnl ++ s2l "b)").
Proof.
  split; [|exists (s2l "echo $(subst a,  "), (s2l "b)"); reflexivity].
  intros D. pose proof (doubled_bad _ D false false) as H. vm_compute in H. discriminate.
Qed.

(** C54.  The output of $(shell) and of != is the output without carriage returns before newlines, without the
    newlines at its end (only one of them for !=), and with spaces for the other newlines. *)
Theorem C54_fold trim t : ~ List.In c_nul t -> fold_newlines trim t = folded trim (dropcr t).
Proof. apply fold_newlines_spec. Qed.
(** So no newline is left, *)
Theorem C54_no_newline trim t : ~ List.In c_nul t -> ~ List.In c_nl (fold_newlines trim t).
Proof.
  intros N. rewrite fold_newlines_spec by exact N. unfold folded. intros H. apply in_map_iff in H. destruct H as (c & E & _).
  destruct (c =?c c_nl) eqn:F; [discriminate|]. subst. rewrite eqc_refl in F. discriminate.
Qed.
(** and output of one line is given as it is. *)
Theorem C54_line trim t : ~ List.In c_nul t -> ~ List.In c_nl t -> fold_newlines trim t = t.
Proof.
  intros N L. rewrite fold_newlines_spec by exact N.
  assert (D : dropcr t = t).
  { clear N. induction t as [|c t IH]; [reflexivity|]. cbn [dropcr]. destruct t as [|d t]; [reflexivity|].
    destruct (d =?c c_nl) eqn:E; [apply eqc_true in E; subst; exfalso; apply L; right; left; reflexivity|].
    rewrite andb_false_r. f_equal. apply IH. intros G. apply L. right. exact G. }
  rewrite D. unfold folded.
  assert (R : (if trim then drop_nls else drop_nl) (rev t) = rev t).
  { assert (LR : ~ List.In c_nl (rev t)) by (intros G; apply in_rev in G; contradiction).
    destruct (rev t) as [|c r]; [destruct trim; reflexivity|].
    assert (E : c =?c c_nl = false) by (destruct (c =?c c_nl) eqn:E; [apply eqc_true in E; subst; exfalso; apply LR; left; reflexivity|reflexivity]).
    destruct trim; cbn [drop_nls drop_nl]; rewrite E; reflexivity. }
  rewrite R, rev_involutive. clear R D N. induction t as [|c t IH]; [reflexivity|]. cbn [map].
  destruct (c =?c c_nl) eqn:E; [apply eqc_true in E; subst; exfalso; apply L; left; reflexivity|].
  f_equal. apply IH. intros G. apply L. right. exact G.
Qed.
(** What follows a null character is lost without a message. *)
Theorem C54_nul_refuted : exists t, List.In (ascii_of_nat 98) t /\ fold_newlines true t = s2l "a".
Proof. exists (s2l "a" ++ c_nul :: s2l "b"). split; [vm_compute; right; right; left; reflexivity|vm_compute; reflexivity]. Qed.
Example C54_ex : fold_newlines true (s2l "a" ++ [c_cr; c_nl; c_nl] ++ s2l "b" ++ [c_nl; c_nl]) = s2l "a  b" /\
  fold_newlines false (s2l "a" ++ [c_cr; c_nl; c_nl] ++ s2l "b" ++ [c_nl; c_nl]) = s2l "a  b ".
Proof. split; vm_compute; reflexivity. Qed.

(** C55.  Before a command is run, one recipe prefix is removed from every line after the first. *)
Theorem C55_prefix prefix l ls : prefix <> c_nl -> ~ List.In c_nl l -> Forall (fun x => ~ List.In c_nl x) ls ->
  no_prefix prefix (unlines l ls) = unlines l (map (less_prefix prefix) ls).
Proof. intros. apply no_prefix_lines; assumption. Qed.
(** But it is removed from all the lines that are still to be run each time: if the text of a variable gives
    two commands, the second loses two. *)
Theorem C55_twice_refuted : exists first second,
  run_line 5 c_tab second = Some [Direct [s2l "echo"; s2l "b" ++ c_bsnl ++ [c_tab] ++ s2l "c"] None] /\
  option_map (@tl run) (run_line 5 c_tab (first ++ c_nl :: second)) = Some [Direct [s2l "echo"; s2l "b" ++ c_bsnl ++ s2l "c"] None].
Proof.
  exists (s2l "echo a"), (s2l "@echo 'b" ++ c_bsnl ++ [c_tab; c_tab] ++ s2l "c'"). split; vm_compute; reflexivity.
Qed.
Example C55_ex : no_prefix c_tab (unlines (s2l "a\") [c_tab :: c_tab :: s2l "b"; s2l "c"]) = unlines (s2l "a\") [c_tab :: s2l "b"; s2l "c"].
Proof. vm_compute. reflexivity. Qed.

Print Assumptions C53_fits.
Print Assumptions C53_tidy.
Print Assumptions C53_plain.
Print Assumptions C53_outside.
Print Assumptions C53_text.
Print Assumptions C53_again.
Print Assumptions C53_shell_refuted.
Print Assumptions C53_doubled_refuted.
Print Assumptions C53_again_refuted.
Print Assumptions C54_fold.
Print Assumptions C54_no_newline.
Print Assumptions C54_line.
Print Assumptions C54_nul_refuted.
Print Assumptions C55_prefix.
Print Assumptions C55_twice_refuted.
