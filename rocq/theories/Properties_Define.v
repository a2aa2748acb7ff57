(** C70: define ... endef. *)
From Coq Require Import Lia String List.
From Verif Require Import Base M_Quote S_Quote P_Quote M_Text S_Text P_Text M_Define S_Define P_Define.
From Verif Require M_Def M_Var Properties_Quote.
Open Scope string_scope.
Open Scope list_scope.
Open Scope nat_scope.

Lemma empty_well : well empty.
Proof. unfold well, empty. cbn [b_length b_size]. lia. Qed.
(** The lines up to the endef that belongs to the define are read, whatever follows. *)
Theorem C70_ends : forall posix prefix b e rest, balanced prefix (map (collapse_continuations posix) b) -> closes prefix (collapse_continuations posix e) ->
  exists ks w, Forall2 (becomes prefix) (map (collapse_continuations posix) b) ks /\ body posix prefix 1 empty 0 (b ++ e :: rest) = Value (joined ks) rest w.
Proof.
  intros posix prefix b e rest B C. apply run_balanced in B. pose proof (body_ends posix prefix (b ++ e :: rest) 0 empty 0 empty_well) as X. destruct (body posix prefix 1 empty 0 (b ++ e :: rest)) as [v rest' w'| | |]; try contradiction.
  - destruct X as (ls & e' & ks & k & wk & we & E & R & C' & K & KE & V & W). destruct (run_stop posix prefix _ _ _ _ C C' _ _ _ B R E) as (<- & <- & <-). exists ks, w'. split; [eapply kepts_becomes; eauto|]. subst v. cbn [empty b_text app]. rewrite ended_joined. reflexivity.
  - exfalso. exact (X _ _ _ eq_refl B C).
Qed.
(** And nothing else is. *)
Theorem C70_value : forall posix prefix lines v rest w, body posix prefix 1 empty 0 lines = Value v rest w ->
  exists b e ks, lines = b ++ e :: rest /\ balanced prefix (map (collapse_continuations posix) b) /\ closes prefix (collapse_continuations posix e) /\
    Forall2 (becomes prefix) (map (collapse_continuations posix) b) ks /\ v = joined ks.
Proof.
  intros posix prefix lines v rest w H. pose proof (body_ends posix prefix lines 0 empty 0 empty_well) as X. rewrite H in X. destruct X as (ls & e' & ks & k & wk & we & E & R & C' & K & KE & V & W). exists ls, e', ks. split; [exact E|]. split; [apply run_balanced; exact R|]. split; [exact C'|]. split; [eapply kepts_becomes; eauto|]. subst v. cbn [empty b_text app]. apply ended_joined.
Qed.
(** An endef is missing exactly if there is none that belongs to the define. *)
Theorem C70_missing : forall posix prefix lines, body posix prefix 1 empty 0 lines = Missing <->
  ~ exists b e rest, lines = b ++ e :: rest /\ balanced prefix (map (collapse_continuations posix) b) /\ closes prefix (collapse_continuations posix e).
Proof.
  intros posix prefix lines. split.
  - intros H (b & e & rest & -> & B & C). destruct (C70_ends posix prefix b e rest B C) as (ks & w & _ & X). congruence.
  - intros N. pose proof (body_ends posix prefix lines 0 empty 0 empty_well) as X. destruct (body posix prefix 1 empty 0 lines) as [v rest w| | |]; try contradiction; [|reflexivity]. destruct X as (ls & e & ks & k & wk & we & E & R & C & _). destruct N. exists ls, e, rest. split; [exact E|]. split; [apply run_balanced; exact R|exact C].
Qed.
(** The buffer is large enough, for all lines. *)
Theorem C70_fits : forall posix prefix lines, body posix prefix 1 empty 0 lines <> Overflow /\ body posix prefix 1 empty 0 lines <> NoFuel.
Proof. intros posix prefix lines. pose proof (body_ends posix prefix lines 0 empty 0 empty_well) as X. destruct (body posix prefix 1 empty 0 lines); split; try discriminate; contradiction. Qed.
(** Text without continuation lines, and without a number sign in an inner endef, is taken as it is. *)
Theorem C70_verbatim : forall posix prefix b rest, prefix <> "e"%char -> balanced prefix b -> (forall l, In l b -> ~ In c_nl l) -> (forall l, In l b -> closes prefix l -> ~ In (ascii_of_nat 35) l) ->
  exists w, body posix prefix 1 empty 0 (b ++ s2l "endef" :: rest) = Value (joined b) rest w.
Proof.
  intros posix prefix b rest P B NL NH. assert (M : map (collapse_continuations posix) b = b). { rewrite <- (map_id b) at 2. apply map_ext_in. intros l I. apply Properties_Quote.C18_single_line_unchanged. auto. }
  assert (C : closes prefix (collapse_continuations posix (s2l "endef"))). { rewrite Properties_Quote.C18_single_line_unchanged by (cbn; intuition discriminate). exists []. split; [exists []; split; [intros c []|reflexivity]|]. split; [|auto]. intros c t E. injection E as <- _. congruence. }
  destruct (C70_ends posix prefix b (s2l "endef") rest) as (ks & w & F & H); [rewrite M; exact B|exact C|]. exists w. rewrite H. f_equal. f_equal. rewrite M in F. clear - F NH. induction F as [|l k ls ks K F IH]; [reflexivity|]. f_equal; [|apply IH; intros; apply NH; [right|]; assumption].
  destruct K as [(-> & _) | (C & [-> | I])]; try reflexivity. destruct (NH l (or_introl eq_refl) C I).
Qed.
(** make complains exactly if there is something behind an endef, the inner ones included. *)
Theorem C70_warning : forall posix prefix b e rest v w, balanced prefix (map (collapse_continuations posix) b) -> closes prefix (collapse_continuations posix e) -> body posix prefix 1 empty 0 (b ++ e :: rest) = Value v rest w ->
  (forall l r, In l (b ++ [e]) -> starts prefix (s2l "endef") (collapse_continuations posix l) r -> ~ In (ascii_of_nat 35) r) ->
  (w = 0 <-> forall l r, In l (b ++ [e]) -> starts prefix (s2l "endef") (collapse_continuations posix l) r -> blankline r).
Proof.
  intros posix prefix b e rest v w B C H NH. apply run_balanced in B. pose proof (body_ends posix prefix (b ++ e :: rest) 0 empty 0 empty_well) as X. rewrite H in X. destruct X as (ls & e' & ks & k & wk & we & E & R & C' & K & KE & V & W). destruct (run_stop posix prefix _ _ _ _ C C' _ _ _ B R E) as (<- & <- & _).
  assert (ONE : forall l k w, (forall r, starts prefix (s2l "endef") l r -> ~ In (ascii_of_nat 35) r) -> kept prefix l k w -> (w = 0 <-> forall r, starts prefix (s2l "endef") l r -> blankline r)).
  { clear. intros l k w N K. inversion K as [? NC|sp r q ? S1 L1 U1]; subst; [split; [intros _ r S; destruct NC; exists r; exact S|reflexivity]|]. rewrite uncomment_none in U1 by (apply N; exact S1). injection U1 as <-. destruct (next_token_spec r) as (sp' & SP & L & NS). split.
    - intros Z r' S'. rewrite <- (starts_unique _ _ _ _ S1 S'). destruct (next_token r); [|discriminate]. rewrite app_nil_r in L. rewrite L. exact SP.
    - intros Z. specialize (Z r S1). destruct (next_token r) as [|a t] eqn:T; [reflexivity|]. specialize (NS a t eq_refl). rewrite (Z a) in NS; [discriminate|]. rewrite L. apply in_or_app. right. left. reflexivity. }
  assert (ALL : forall ls, (forall l r, In l ls -> starts prefix (s2l "endef") (collapse_continuations posix l) r -> ~ In (ascii_of_nat 35) r) -> forall ks w, kepts prefix (map (collapse_continuations posix) ls) ks w -> (w = 0 <-> forall l r, In l ls -> starts prefix (s2l "endef") (collapse_continuations posix l) r -> blankline r)).
  { clear - ONE. induction ls as [|l ls IH]; intros N ks w K; cbn [map] in K; inversion K as [|? k v ? ks1 v1 A1 A2]; subst; [split; [intros _ l r []|reflexivity]|].
    pose proof (ONE _ _ _ (fun r => N l r (or_introl eq_refl)) A1) as O1. pose proof (IH (fun l' r I => N l' r (or_intror I)) _ _ A2) as O2. split.
    - intros Z l' r [<-|I]; [apply O1; lia|apply O2; [lia|exact I]].
    - intros Z. assert (v = 0) by (apply O1; intros r; apply (Z l r); left; reflexivity). assert (v1 = 0) by (apply O2; intros l' r I; apply (Z l' r); right; exact I). lia. }
  pose proof (ALL b (fun l r I => NH l r (in_or_app _ _ _ (or_introl I))) _ _ K) as O1. assert (IE : In e (b ++ [e])) by (apply in_or_app; right; left; reflexivity). pose proof (ONE _ _ _ (fun r => NH e r IE) KE) as O2. split.
  - intros Z l r I. apply in_app_or in I. destruct I as [I|[<-|[]]]; [apply O1; [lia|exact I]|apply O2; lia].
  - intros Z. assert (wk = 0) by (apply O1; intros l r I; apply Z; apply in_or_app; left; exact I). assert (we = 0) by (apply O2; intros r; apply Z; apply in_or_app; right; left; reflexivity). lia.
Qed.
(** The name: the text before the operator, expanded, without what is blank around it; there is always one. *)
Lemma skip_back_spec : forall r c t, r = c :: t -> exists bl d u, r = bl ++ d :: u /\ skip_back r = d :: u /\ (forall x, In x bl -> isblank x = true) /\ (isblank d = false \/ u = []).
Proof.
  induction r as [|a r IH]; intros c t E; [discriminate|]. injection E as -> ->. cbn [skip_back]. destruct (isblank c) eqn:B.
  - destruct t as [|b t]; cbn [andb].
    + exists [], c, []. split; [reflexivity|]. split; [reflexivity|]. split; [intros x []|auto].
    + destruct (IH _ _ eq_refl) as (bl & d & u & E1 & E2 & E3 & E4). exists (c :: bl), d, u. split; [cbn [app]; rewrite <- E1; reflexivity|]. split; [exact E2|]. split; [|exact E4]. intros x [<-|X]; auto.
  - exists [], c, t. cbn [andb app]. split; [reflexivity|]. split; [reflexivity|]. split; [intros x []|auto].
Qed.
Theorem C70_name : forall expand text n f x, head expand text = Some (n, f, x) ->
  exists t sp bl, expand t = sp ++ n ++ bl /\ blankline sp /\ (forall c, In c bl -> isblank c = true) /\
    (exists c r, n = c :: r /\ isspace c = false) /\ (exists r c, n = r ++ [c] /\ isblank c = false) /\
    match M_Def.parse_variable_definition text with None => t = text /\ f = M_Var.f_recursive /\ x = false | Some (m, g, v) => t = m /\ f = g /\ (x = false <-> v = []) end.
Proof.
  intros expand text n f x H. unfold head in H.
  assert (G : forall t g y, match next_token (expand t) with [] => None | n => Some (rev (skip_back (rev n)), g, y) end = Some (n, f, x) -> f = g /\ x = y /\ exists sp bl, expand t = sp ++ n ++ bl /\ blankline sp /\ (forall c, In c bl -> isblank c = true) /\ (exists c r, n = c :: r /\ isspace c = false) /\ (exists r c, n = r ++ [c] /\ isblank c = false)).
  { clear. intros t g y H. destruct (next_token_spec (expand t)) as (sp & SP & L & NS). destruct (next_token (expand t)) as [|a m] eqn:T; [discriminate|]. remember (rev (a :: m)) as rm eqn:RV in H. symmetry in RV. injection H as <- <- <-. split; [reflexivity|]. split; [reflexivity|]. specialize (NS a m eq_refl).
    destruct rm as [|z q]; [apply (f_equal (@length ascii)) in RV; rewrite rev_length in RV; discriminate|]. destruct (skip_back_spec (z :: q) z q eq_refl) as (bl & d & u & E1 & E2 & E3 & E4). rewrite E2.
    assert (AM : a :: m = rev u ++ [d] ++ rev bl). { rewrite <- (rev_involutive (a :: m)), RV, E1, rev_app_distr. cbn [rev]. rewrite <- app_assoc. reflexivity. }
    exists sp, (rev bl). cbn [rev]. split; [rewrite L, AM, <- !app_assoc; reflexivity|]. split; [exact SP|]. split; [intros c I; apply in_rev in I; auto|].
    assert (FD : exists c r, rev u ++ [d] = c :: r /\ isspace c = false). { destruct (rev u) as [|p r] eqn:RU; cbn [app] in *; injection AM as -> _; [exists d, []; auto|exists p, (r ++ [d]); auto]. }
    split; [exact FD|]. exists (rev u), d. split; [reflexivity|]. destruct E4 as [E4 | ->]; [exact E4|]. cbn [rev app] in FD. destruct FD as (c & r & X & Y). injection X as -> _. destruct (isblank c) eqn:B; [|reflexivity]. apply isblank_isspace in B. congruence. }
  destruct (M_Def.parse_variable_definition text) as [[[m g] v]|].
  - apply G in H. destruct H as (-> & -> & sp & bl & A & B & C & D & E). exists m, sp, bl. split; [exact A|]. split; [exact B|]. split; [exact C|]. split; [exact D|]. split; [exact E|]. split; [reflexivity|]. split; [reflexivity|]. destruct v; split; congruence.
  - apply G in H. destruct H as (-> & -> & sp & bl & A & B & C & D & E). exists text, sp, bl. split; [exact A|]. split; [exact B|]. split; [exact C|]. split; [exact D|]. split; [exact E|]. auto.
Qed.
(** make stops for want of a name exactly if nothing but blanks is left. *)
Theorem C70_empty : forall expand text, head expand text = None <-> blankline (expand (match M_Def.parse_variable_definition text with Some (m, _, _) => m | None => text end)).
Proof.
  intros expand text. unfold head. assert (G : forall s, next_token s = [] <-> blankline s).
  { intros s. destruct (next_token_spec s) as (sp & SP & L & NS). split; [intros E; rewrite E, app_nil_r in L; rewrite L; exact SP|]. intros B. destruct (next_token s) as [|a t]; [reflexivity|]. specialize (NS a t eq_refl). rewrite (B a) in NS; [discriminate|]. rewrite L. apply in_or_app. right. left. reflexivity. }
  destruct (M_Def.parse_variable_definition text) as [[[m g] v]|]; rewrite <- G; (destruct (next_token _); split; congruence).
Qed.

(** ** What does not hold. *)
(** A comment behind an inner endef is lost, and a backslash before a number sign. *)
Theorem C70_comment_refuted : exists ls v, balanced c_tab ls /\ (forall l, In l ls -> ~ In c_nl l) /\ body false c_tab 1 empty 0 (ls ++ [s2l "endef"]) = Value v [] 0 /\ v <> joined ls.
Proof.
  exists [s2l "define x"; s2l "endef # of x"], (s2l "define x" ++ c_nl :: s2l "endef "). split; [|split; [|split; [vm_compute; reflexivity|vm_compute; discriminate]]].
  - apply (bal_block c_tab (s2l "define x") [] (s2l "endef # of x") []); try apply bal_nil.
    + exists (s2l " x"). split; [exists []; split; [intros c []|reflexivity]|]. split; [intros c t E; injection E as <- _; discriminate|]. right. exists c_sp, (s2l "x"). split; reflexivity.
    + exists (s2l " # of x"). split; [exists []; split; [intros c []|reflexivity]|]. split; [intros c t E; injection E as <- _; discriminate|]. right. exists c_sp, (s2l "# of x"). split; reflexivity.
  - intros l [<-|[<-|[]]]; cbn; intuition discriminate.
Qed.
(** An inner define after override (or export) is not seen: the value ends at its endef, and what follows is read as part of the makefile. *)
Theorem C70_override_refuted : body false c_tab 1 empty 0 (map s2l ["override define x"; "1"; "endef"; "2"; "endef"]) = Value (s2l "override define x" ++ c_nl :: s2l "1") (map s2l ["2"; "endef"]) 0.
Proof. vm_compute. reflexivity. Qed.
(** An endef followed by a number sign without a blank does not end the definition, though it does end other directives. *)
Theorem C70_hash_refuted : body false c_tab 1 empty 0 (map s2l ["1"; "endef# of x"]) = Missing.
Proof. vm_compute. reflexivity. Qed.

(** ** Cases. *)
Example reads : body false c_tab 1 empty 0 (map s2l ["a"; " define y ="; "b"; "endef"; "	endef"; "endef"; "rest"]) = Value (joined (map s2l ["a"; " define y ="; "b"; "endef"; "	endef"])) [s2l "rest"] 0.
Proof. vm_compute. reflexivity. Qed.
Example complains : body false c_tab 1 empty 0 (map s2l ["a"; "endef x"]) = Value (s2l "a") [] 1.
Proof. vm_compute. reflexivity. Qed.
Example misses : body false c_tab 1 empty 0 (map s2l ["define b"; "endef"]) = Missing.
Proof. vm_compute. reflexivity. Qed.
Example grows : exists v, body false c_tab 1 empty 0 [repeat c_sp 99; repeat c_sp 1; s2l "endef"] = Value v [] 0 /\ length v = 101.
Proof. eexists. split; vm_compute; reflexivity. Qed.
Example names : head (fun t => t) (s2l "  foo +=  ") = Some (s2l "foo", M_Var.f_append, false) /\ head (fun t => t) (s2l "foo bar ") = Some (s2l "foo bar", M_Var.f_recursive, false) /\ head (fun t => t) (s2l "x = y") = Some (s2l "x", M_Var.f_recursive, true) /\ head (fun t => t) (s2l " = ") = None.
Proof. vm_compute. repeat split; reflexivity. Qed.

Print Assumptions C70_ends.
Print Assumptions C70_value.
Print Assumptions C70_missing.
Print Assumptions C70_fits.
Print Assumptions C70_verbatim.
Print Assumptions C70_warning.
Print Assumptions C70_name.
Print Assumptions C70_empty.
Print Assumptions C70_comment_refuted.
Print Assumptions C70_override_refuted.
Print Assumptions C70_hash_refuted.
