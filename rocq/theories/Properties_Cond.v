From Verif Require Import Base M_Text S_Expand M_Cond S_Cond P_Cond.
Open Scope string_scope.
Open Scope list_scope.
Open Scope nat_scope.

(** ** C20 *)
Section Any.
  Variable state : Type.
  Variable expand : state -> str -> str.
  Variable nonempty : state -> str -> bool.
  Variable act : state -> rline -> state.
  Variable define : state -> str -> list rline -> state.

  (** Of every conditional exactly the first branch whose condition holds is read, in the state
      the lines before it left; whatever the depth of nesting, at any depth; afterwards reading
      goes on as before. *)
  Theorem C20_one_branch_is_read : forall p sg sg' levels,
    wf p -> exec state expand nonempty act define p sg sg' -> any_ignoring levels = Some false ->
    read_lines state expand nonempty act define (mkloop state sg levels false false None) (lines p)
    = LOk state (mkloop state sg' levels false false None).
  Proof. intros p sg sg' levels W X A. apply (proj1 (run_all state expand nonempty act define)); assumption. Qed.

  (** Ignored text changes nothing; the conditions in it may be anything. *)
  Theorem C20_ignored_text : forall p sg levels,
    wf p -> any_ignoring levels = Some true ->
    read_lines state expand nonempty act define (mkloop state sg levels true false None) (lines p)
    = LOk state (mkloop state sg levels true false None).
  Proof. intros p sg levels W A. apply (proj1 (skip_all state expand nonempty act define)); assumption. Qed.

  (** The truth of a condition is decided as written, in all its forms. *)
  Theorem C20_conditions : forall sg k args b levels,
    condition state expand nonempty sg k args b -> any_ignoring levels = Some false ->
    push_if state expand nonempty sg k args levels = CRet (mklevel (Some (if b then 0 else 1)) false :: levels) (negb b).
  Proof. intros sg k args b levels C A. apply push_test; assumption. Qed.
End Any.
Print Assumptions C20_one_branch_is_read.
Print Assumptions C20_ignored_text.
Print Assumptions C20_conditions.

(** A state for examples: the lines acted on; expansion changes nothing, only A is defined. *)
Definition tr := list rline.
Definition tr_expand (_ : tr) (s : str) : str := s.
Definition tr_nonempty (_ : tr) (s : str) : bool := str_eqb s (s2l "A").
Definition tr_act (t : tr) (l : rline) : tr := t ++ [l].
Definition tr_define (t : tr) (n : str) (b : list rline) : tr := t ++ [RDefine n].
Definition tr_run (ls : list rline) := read_lines tr tr_expand tr_nonempty tr_act tr_define (mkloop tr [] [] false false None) ls.
Definition L (s : string) : rline := ROther (s2l s).

Lemma wt : forall w s a, w <> [] -> forallb (fun c => negb (isspace c)) w = true -> forallb isspace s = true ->
  (a = [] \/ (s <> [] /\ exists c r, a = c :: r /\ isspace c = false)) -> word_then (w ++ s ++ a) w a.
Proof.
  intros w s a N W S A. exists s. split; [reflexivity|]. split; [exact N|]. rewrite forallb_forall in W, S.
  split; [apply Forall_forall; intros c Hc; apply W in Hc; destruct (isspace c); [discriminate|reflexivity]|].
  split; [apply Forall_forall; intros c Hc; apply S; exact Hc|exact A].
Qed.
Ltac wt0 w := apply (wt (s2l w) [] []); [discriminate|reflexivity|reflexivity|left; reflexivity].
Ltac wt1 w a := apply (wt (s2l w) [c_sp] (s2l a)); [discriminate|reflexivity|reflexivity|right; split; [discriminate|eexists _, _; split; reflexivity]].
Example C20_example :
  let p := PIf (s2l "ifeq (a,b)") k_ifeq (s2l "(a,b)") (PAct (L "one") PNil)
             (TElif (s2l "else ifdef A") k_ifdef (s2l "A") (PAct (L "two") PNil) (TElse (s2l "else") (PAct (L "three") PNil) (s2l "endif")))
             (PAct (L "four") PNil) in
  wf p /\ exec tr tr_expand tr_nonempty tr_act tr_define p [] [L "two"; L "four"] /\
  tr_run (lines p) = LOk tr (mkloop tr [L "two"; L "four"] [] false false None).
Proof.
  assert (PL : forall w, w <> [] -> forallb (fun c => negb (isspace c)) w = true ->
    ~ In w [s2l "ifdef"; s2l "ifndef"; s2l "ifeq"; s2l "ifneq"; s2l "else"; s2l "endif"] -> plain_line (ROther w)).
  { intros w N W I. exists w, []. split; [|exact I]. pose proof (wt w [] [] N W eq_refl (or_introl eq_refl)) as E. rewrite !app_nil_r in E. exact E. }
  split; [|split; [|reflexivity]].
  - cbn [wf wf_tail]. split; [wt1 "ifeq" "(a,b)"|]. split; [split; [|exact I]|split; [|split; [|exact I]]].
    + apply PL; [discriminate|reflexivity|]. cbn [In]. intuition discriminate.
    + split; [exists (s2l "ifdef A"); split; [wt1 "else" "ifdef A"|wt1 "ifdef" "A"]|]. split; [split; [|exact I]|].
      * apply PL; [discriminate|reflexivity|]. cbn [In]. intuition discriminate.
      * split; [wt0 "else"|]. split; [split; [|exact I]|exists []; wt0 "endif"]. apply PL; [discriminate|reflexivity|]. cbn [In]. intuition discriminate.
    + apply PL; [discriminate|reflexivity|]. cbn [In]. intuition discriminate.
  - apply (x_false _ _ _ _ _ _ _ _ _ _ _ [] [L "two"]).
    + apply (c_different tr tr_expand tr_nonempty [] k_ifeq _ (s2l "a") (s2l "b")); [left; reflexivity| |discriminate].
      apply (cmp_paren (s2l "a") [] [] (s2l "b") []).
      * apply oa_char; [discriminate..|constructor].
      * right. exists [], "a"%char. split; reflexivity.
      * constructor.
      * constructor.
      * right. exists "b"%char, []. split; reflexivity.
      * apply ne_char; [discriminate..|constructor].
    + apply xt_true; [|apply x_act; apply x_nil]. apply (c_defined tr tr_expand tr_nonempty [] k_ifdef (s2l "A") (s2l "A") []); [left; reflexivity|reflexivity| |constructor].
      constructor; [reflexivity|constructor].
    + apply x_act. apply x_nil.
Qed.

(** A malformed condition after "else" is not an error: it only prints a message, leaves one level
    too many behind and then tests memory that was never written. *)
Theorem C20_malformed_else_if_refuted : exists ls, tr_run ls = LUB tr.
Proof. exists [L "ifdef B"; L "else ifeq x"; L "endif"]. reflexivity. Qed.
Print Assumptions C20_malformed_else_if_refuted.

(** In ignored text a define inside a define ends at the first endef: what follows, still inside
    the outer define, is taken for directives. *)
Theorem C20_ignored_nested_define_refuted : exists body,
  (* read as a definition, [body] is one definition and nothing else *)
  tr_run (RDefine (s2l "x") :: body) = LOk tr (mkloop tr [RDefine (s2l "x")] [] false false None) /\
  (* ignored, part of it is acted on *)
  tr_run (L "ifdef B" :: RDefine (s2l "x") :: body ++ [L "endif"]) = LOk tr (mkloop tr [L "text"; L "endef"] [] false false None).
Proof. exists [RDefine (s2l "y"); L "endef"; L "else"; L "text"; L "endef"]. split; reflexivity. Qed.
Print Assumptions C20_ignored_nested_define_refuted.

(** An "else" with other text behind it does not count as an else: a second one is accepted. *)
Theorem C20_two_elses_refuted : exists l, tr_run [L "ifdef B"; L "else x"; L "one"; L "else"; L "two"; L "endif"] = LOk tr l.
Proof. eexists. reflexivity. Qed.
Print Assumptions C20_two_elses_refuted.

(** Two texts that are no conditions but are taken for them. *)
Theorem C20_odd_syntax_refuted :
  tr_run [L "ifeq ,a,a)"; L "one"; L "endif"] = LOk tr (mkloop tr [L "one"] [] false false None) /\
  tr_run [L "ifeq '' )"; L "one"; L "endif"] = LOk tr (mkloop tr [L "one"] [] false false None).
Proof. split; reflexivity. Qed.
Print Assumptions C20_odd_syntax_refuted.
