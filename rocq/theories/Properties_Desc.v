(** C60: descriptions of targets. *)
From Coq Require Import Permutation Sorted.
From Verif Require Import Base M_Quote M_Desc S_Desc P_Desc.
From Verif Require M_Debugger P_Debugger3.
Open Scope string_scope.
Open Scope list_scope.
Open Scope nat_scope.

(** Every rule is recorded with the description read since the rule before it, whatever was read earlier. *)
Theorem C60_described : forall k l said, reads true 0 None None l said -> eval k l = Some said.
Proof.
  intros k l said R. unfold eval. change (steps (mkst None None k [] []) (Open :: l ++ [Close])) with (steps (mkst None None k [None] []) (l ++ [Close])).
  destruct (reads_ok true 0 None None l said R (mkst None None k [None] []) []) as (s' & E & _ & O & _).
  - unfold inv. cbn [frames td pd tdl]. repeat split; [congruence|left; reflexivity].
  - rewrite E. cbn [option_map]. rewrite O. reflexivity.
Qed.
Print Assumptions C60_described.

(** The reading is determined by the events. *)
Theorem C60_one_reading : forall l said said', reads true 0 None None l said -> reads true 0 None None l said' -> said = said'.
Proof. intros l said said' A B. apply (C60_described 0) in A. apply (C60_described 0) in B. congruence. Qed.
Print Assumptions C60_one_reading.

(** The text of a description: all that follows [#: ] on the line, the # being the first that is not quoted and not in a reference. *)
Lemma comment_plain pre : forall n m s, Forall (fun c => c <> c_dollar /\ c <> "#"%char /\ c <> c_bslash) pre -> (pre = [] -> n = 0) -> m = Txt n -> comment m (pre ++ s) = comment (Txt 0) s.
Proof.
  induction pre as [|c pre IH]; intros n m s F N ->; [rewrite (N eq_refl); reflexivity|]. inversion F as [|? ? (A & B & C) F']; subst. cbn [app comment].
  destruct (c =?c c_dollar) eqn:E1; [apply eqc_true in E1; congruence|]. destruct (c =?c "#") eqn:E2; [apply eqc_true in E2; congruence|]. destruct (c =?c c_bslash) eqn:E3; [apply eqc_true in E3; congruence|].
  apply (IH 0); [exact F'|reflexivity|reflexivity].
Qed.
Theorem C60_text :
  (forall pre d, Forall (fun c => c <> c_dollar /\ c <> "#"%char /\ c <> c_bslash) pre -> describes (pre ++ s2l "#: " ++ d) d) /\
  (forall line d, describes line d -> exists pre, line = pre ++ s2l "#: " ++ d).
Proof.
  split.
  - intros pre d F. unfold describes. rewrite (comment_plain pre 0); [reflexivity|exact F|reflexivity|reflexivity].
  - intros line d. unfold describes. generalize (Txt 0). induction line as [|x line IH]; intros m H; [discriminate|].
    assert (K : forall m', comment m' line = Some (s2l "#: " ++ d) -> exists pre, x :: line = pre ++ s2l "#: " ++ d) by (intros m' H'; destruct (IH m' H') as (pre & ->); exists (x :: pre); reflexivity).
    cbn [comment] in H. destruct m as [n| |o c e].
    + destruct (x =?c c_dollar); [apply (K _ H)|]. destruct (x =?c "#"); [|destruct (x =?c c_bslash); apply (K _ H)]. destruct (Nat.even n); [|apply (K _ H)]. exists []. injection H as H1 H2. cbn [app]. rewrite H1, H2. reflexivity.
    + destruct ((x =?c c_lparen) || (x =?c c_lbrace)); [apply (K _ H)|]. destruct (x =?c c_bslash); apply (K _ H).
    + destruct (x =?c o); [apply (K _ H)|]. destruct (x =?c c); [destruct e; apply (K _ H)|apply (K _ H)].
Qed.
Print Assumptions C60_text.

(** The description of a target is that of the last rule that names it. *)
Lemma names_in t l : existsb (str_eqb t) l = true <-> In t l.
Proof. rewrite existsb_exists. split; [intros (x & I & E); apply str_eqb_eq in E; subst; exact I|intros I; exists t; split; [exact I|apply str_eqb_refl]]. Qed.
Lemma description_rest t l : forall d, (forall x, In x l -> ~ In t (fst x)) -> fold_left (fun d x => if existsb (str_eqb t) (fst x) then snd x else d) l d = (d : option str).
Proof.
  induction l as [|x l IH]; intros d N; [reflexivity|]. cbn [fold_left]. destruct (existsb (str_eqb t) (fst x)) eqn:E; [apply names_in in E; elim (N x (or_introl eq_refl) E)|]. apply IH. intros y I. apply N. right. exact I.
Qed.
Theorem C60_last :
  (forall t l1 names d l2, In t names -> (forall x, In x l2 -> ~ In t (fst x)) -> description t (l1 ++ (names, d) :: l2) = d) /\
  (forall t l, (forall x, In x l -> ~ In t (fst x)) -> description t l = None).
Proof.
  split.
  - intros t l1 names d l2 I N. unfold description. rewrite fold_left_app. cbn [fold_left fst snd]. apply names_in in I. rewrite I. apply description_rest. exact N.
  - intros t l N. apply description_rest. exact N.
Qed.
Print Assumptions C60_last.

(** [--tasks]: the targets with a description, in the order of their names, whatever the order in the table. *)
Definition before (a b : str * option str) : Prop := M_Debugger.strcmp (fst a) (fst b) = Lt.
Definition sorts (qsort : list (str * option str) -> list (str * option str)) : Prop :=
  forall l, Permutation (qsort l) l /\ StronglySorted (fun a b => M_Debugger.strcmp (fst a) (fst b) <> Gt) (qsort l).
Definition is_task (f : str * option str) : bool := match snd f with Some _ => true | None => false end.
Definition task_line (f : str * option str) : str := pad20 (fst f) ++ c_sp :: match snd f with Some d => d | None => [] end.
Lemma before_irrefl a : ~ before a a.
Proof. unfold before. intros H. assert (E : M_Debugger.strcmp (fst a) (fst a) = Eq) by (apply P_Debugger3.strcmp_eq; reflexivity). congruence. Qed.
Lemma before_trans a b c : before a b -> before b c -> before a c.
Proof. unfold before. apply P_Debugger3.strcmp_trans. Qed.
Lemma sorted_unique l : forall l', StronglySorted before l -> StronglySorted before l' -> Permutation l l' -> l = l'.
Proof.
  induction l as [|a l IH]; intros l' A B P0; [apply Permutation_nil in P0; subst; reflexivity|].
  destruct l' as [|b l']; [apply Permutation_sym, Permutation_nil in P0; discriminate|]. inversion A as [|? ? A1 A2]; subst. inversion B as [|? ? B1 B2]; subst.
  assert (E : a = b).
  { assert (I : In a (b :: l')) by (apply (Permutation_in _ P0); left; reflexivity). destruct I as [I|I]; [symmetry; exact I|].
    assert (J : In b (a :: l)) by (apply (Permutation_in _ (Permutation_sym P0)); left; reflexivity). destruct J as [J|J]; [exact J|].
    rewrite Forall_forall in A2, B2. elim (before_irrefl a). apply (before_trans a b a); [apply A2; exact J|apply B2; exact I]. }
  subst b. f_equal. apply IH; [exact A1|exact B1|]. apply Permutation_cons_inv in P0. exact P0.
Qed.
Lemma strict l : NoDup (map fst l) -> StronglySorted (fun a b => M_Debugger.strcmp (fst a) (fst b) <> Gt) l -> StronglySorted before l.
Proof.
  intros N H. induction H as [|a l H IH F]; [constructor|]. cbn [map] in N. inversion N as [|? ? N1 N2]; subst. constructor; [apply IH; exact N2|]. rewrite Forall_forall in *. intros b I. specialize (F b I). unfold before.
  destruct (M_Debugger.strcmp (fst a) (fst b)) eqn:E; [|reflexivity|congruence]. apply P_Debugger3.strcmp_eq in E. elim N1. rewrite E. apply in_map. exact I.
Qed.
Lemma sorted_filter f l : StronglySorted before l -> StronglySorted before (filter f l).
Proof.
  intros H. induction H as [|a l H IH F]; [constructor|]. cbn [filter]. destruct (f a); [|exact IH]. constructor; [exact IH|]. rewrite Forall_forall in *. intros b I. apply filter_In in I. apply F. exact (proj1 I).
Qed.
Lemma perm_filter (f : str * option str -> bool) l l' : Permutation l l' -> Permutation (filter f l) (filter f l').
Proof.
  intros H. induction H as [|x a b H IH|x y a|a b c H1 IH1 H2 IH2]; cbn [filter]; [constructor|destruct (f x); [constructor|]; exact IH|destruct (f x), (f y); repeat constructor; apply Permutation_refl|exact (Permutation_trans IH1 IH2)].
Qed.
Lemma info_tasks_filter qsort files : info_tasks qsort files = map task_line (filter is_task (qsort files)).
Proof.
  unfold info_tasks. induction (qsort files) as [|[n [d|]] l IH]; [reflexivity| |]; cbn [flat_map filter is_task snd]; [cbn [map app]; f_equal; exact IH|exact IH].
Qed.
Theorem C60_tasks :
  forall qsort files, sorts qsort -> NoDup (map fst files) ->
  exists l, info_tasks qsort files = map task_line l /\ StronglySorted before l /\ (forall f, In f l <-> In f files /\ snd f <> None).
Proof.
  intros qsort files Q N. exists (filter is_task (qsort files)). split; [apply info_tasks_filter|]. destruct (Q files) as [P0 S0]. split.
  - apply sorted_filter, strict; [|exact S0]. eapply Permutation_NoDup; [|exact N]. apply Permutation_map, Permutation_sym. exact P0.
  - intros f. rewrite filter_In. split; intros [A B]; (split; [|unfold is_task in *; destruct (snd f); congruence]); [apply (Permutation_in _ P0); exact A|apply (Permutation_in _ (Permutation_sym P0)); exact A].
Qed.
Print Assumptions C60_tasks.
Theorem C60_tasks_order :
  forall qsort qsort' files files', sorts qsort -> sorts qsort' -> NoDup (map fst files) -> Permutation files files' -> info_tasks qsort files = info_tasks qsort' files'.
Proof.
  intros q q' files files' Q Q' N P0. rewrite !info_tasks_filter. f_equal. destruct (Q files) as [P1 S1]. destruct (Q' files') as [P2 S2].
  apply sorted_unique.
  - apply sorted_filter, strict; [|exact S1]. eapply Permutation_NoDup; [|exact N]. apply Permutation_map, Permutation_sym. exact P1.
  - apply sorted_filter, strict; [|exact S2]. eapply Permutation_NoDup; [|exact N]. apply Permutation_map. apply (Permutation_trans P0), Permutation_sym. exact P2.
  - apply perm_filter. apply (Permutation_trans P1), (Permutation_trans P0), Permutation_sym. exact P2.
Qed.
Print Assumptions C60_tasks_order.

(** ** Concrete cases *)
Definition T (s : string) (n : nat) : event := Text (s2l s) n.
Definition rule_line (s : string) (names : list string) (n : nat) : list event := [T s n; Ends; Targets (map s2l names) n].
Definition ex : list event :=
  [T "#: the program" 1] ++ rule_line "all: a b" ["all"] 2 ++ [T "#: test" 4] ++ rule_line "check:" ["check"] 5 ++ [T "V = $(x#: y) \#: no" 7; Ends] ++
  [T "include m.mk" 8; Ends; Open; T "#: in m" 40] ++ rule_line "m:" ["m"] 41 ++ [Close] ++ rule_line "n o: #: both" ["n"; "o"] 9 ++ rule_line "p:" ["p"] 10.
Definition ex_said : list (list str * option str) :=
  [([s2l "all"], Some (s2l "the program")); ([s2l "check"], Some (s2l "test")); ([s2l "m"], Some (s2l "in m")); ([s2l "n"; s2l "o"], Some (s2l "both")); ([s2l "p"], None)].
Example C60_ex : eval 0 ex = Some ex_said /\ reads true 0 None None ex ex_said.
Proof.
  split; [vm_compute; reflexivity|]. unfold ex, rule_line, T. cbn [app map].
  assert (QQ : forall s : str, (forall d, comment (Txt 0) s <> Some (s2l "#: " ++ d)) -> quiet s) by (intros s H d D; exact (H d D)).
  Ltac q QQ := eapply r_quiet; [lia|apply QQ; intros d H; vm_compute in H; discriminate|].
  Ltac ds := eapply r_describes; [lia|vm_compute; reflexivity|left; reflexivity|].
  ds. q QQ. apply (r_ends true 2 None). apply r_rule. ds. q QQ. apply (r_ends true 5 (Some _) _ _ (tl ex_said)). apply r_rule. q QQ. apply (r_ends true 7 (Some _) _ _ (tl (tl ex_said))). q QQ. apply (r_ends true 8 None).
  apply (r_nested true 8 [Text (s2l "#: in m") 40; Text (s2l "m:") 41; Ends; Targets [s2l "m"] 41] [([s2l "m"], Some (s2l "in m"))]).
  - ds. q QQ. apply (r_ends false 41 None). apply r_rule. apply (r_end false 41 (Some _)). right. reflexivity.
  - ds. apply (r_ends true 9 None). apply r_rule. q QQ. apply (r_ends true 10 (Some _) _ _ [([s2l "p"], None)]). apply r_rule. apply (r_end true 10 (Some _)). left. reflexivity.
Qed.
Example C60_tasks_ex : info_tasks (fun _ => [(s2l "a", Some (s2l "x")); (s2l "b", None); (s2l "c", Some (s2l "y z"))]) [] = [s2l "a                    x"; s2l "c                    y z"].
Proof. vm_compute. reflexivity. Qed.
Fixpoint ins (a : str * option str) (l : list (str * option str)) : list (str * option str) :=
  match l with [] => [a] | b :: l' => match M_Debugger.strcmp (fst a) (fst b) with Gt => b :: ins a l' | _ => a :: l end end.
Fixpoint isort (l : list (str * option str)) : list (str * option str) := match l with [] => [] | a :: l' => ins a (isort l') end.

Lemma strcmp_gt a : forall b, M_Debugger.strcmp a b = Gt -> M_Debugger.strcmp b a = Lt.
Proof.
  induction a as [|x a IH]; intros [|y b] H; try discriminate; [reflexivity|]. cbn in *. rewrite Nat.compare_antisym.
  destruct (Nat.compare (nat_of_ascii x) (nat_of_ascii y)) eqn:E; cbn; [apply IH; exact H|discriminate|reflexivity].
Qed.
Lemma le_trans a b c : M_Debugger.strcmp a b <> Gt -> M_Debugger.strcmp b c <> Gt -> M_Debugger.strcmp a c <> Gt.
Proof.
  intros A B. destruct (M_Debugger.strcmp a b) eqn:E1; [apply P_Debugger3.strcmp_eq in E1; subst; exact B| |congruence]. destruct (M_Debugger.strcmp b c) eqn:E2; [apply P_Debugger3.strcmp_eq in E2; subst; congruence| |congruence].
  rewrite (P_Debugger3.strcmp_trans a b c E1 E2). discriminate.
Qed.
Example C60_sorts_ex : sorts isort.
Proof.
  assert (PI : forall a l, Permutation (ins a l) (a :: l)).
  { intros a l. induction l as [|b l IH]; [apply Permutation_refl|]. cbn [ins]. destruct (M_Debugger.strcmp (fst a) (fst b)); try apply Permutation_refl. eapply Permutation_trans; [apply perm_skip; exact IH|apply perm_swap]. }
  intros l. split.
  - induction l as [|a l IH]; [constructor|]. cbn [isort]. eapply Permutation_trans; [apply PI|constructor; exact IH].
  - induction l as [|a l IH]; [constructor|]. cbn [isort]. induction IH as [|b m H IH F]; [repeat constructor|]. cbn [ins]. destruct (M_Debugger.strcmp (fst a) (fst b)) eqn:E.
    + constructor; [constructor; assumption|]. constructor; [congruence|]. eapply Forall_impl; [|exact F]. intros c. apply le_trans. congruence.
    + constructor; [constructor; assumption|]. constructor; [congruence|]. eapply Forall_impl; [|exact F]. intros c. apply le_trans. congruence.
    + constructor; [exact IH|]. apply Forall_forall. intros c I. apply (Permutation_in _ (PI a m)) in I. destruct I as [<- |I]; [rewrite (strcmp_gt _ _ E); discriminate|]. rewrite Forall_forall in F. apply F. exact I.
Qed.
Example C60_last_ex : description (s2l "check") ex_said = Some (s2l "test") /\ description (s2l "p") ex_said = None /\ description (s2l "zz") ex_said = None.
Proof. vm_compute. repeat split. Qed.

(** ** Where the code differs *)
(** Two descriptions between two rules: the first replaces that of the rule above. *)
Theorem C60_two_refuted :
  let l a := [T "#: the program" 1] ++ rule_line "all:" ["all"] 2 ++ a ++ rule_line "check:" ["check"] 6 in
  eval 0 (l [T "#: tests" 5]) = Some [([s2l "all"], Some (s2l "the program")); ([s2l "check"], Some (s2l "tests"))] /\
  eval 0 (l [T "#: tests" 4; T "#: all of them" 5]) = Some [([s2l "all"], Some (s2l "tests")); ([s2l "check"], Some (s2l "all of them"))].
Proof. vm_compute. split; reflexivity. Qed.
Print Assumptions C60_two_refuted.
(** A description in a part that a conditional leaves out goes to the next rule. *)
Theorem C60_skipped_refuted :
  eval 0 ([T "ifdef NO" 1; T "#: experimental" 2; T "try:" 3; T "endif" 4] ++ rule_line "clean:" ["clean"] 5) = Some [([s2l "clean"], Some (s2l "experimental"))].
Proof. vm_compute. reflexivity. Qed.
Print Assumptions C60_skipped_refuted.
(** A rule line whose expansion evaluates something loses its description, however little is evaluated. *)
Theorem C60_eval_refuted :
  forall k, eval k [T "#: the program" 1; T "all: $(eval x=1)" 2; Ends; Open; T "x=1" 2; Ends; Close; Targets [s2l "all"] 2] = Some [([s2l "all"], None)].
Proof.
  intros k. unfold eval. cbn [app]. repeat match goal with |- context [steps ?s (?e :: ?l)] => let x := eval cbv -[Nat.ltb] in (step s e) in change (steps s (e :: l)) with (match x with Some s' => steps s' l | None => None end); cbn iota beta end.
  reflexivity.
Qed.
Print Assumptions C60_eval_refuted.
(** An unused description in an included makefile goes to a rule of the makefile that includes it. *)
Theorem C60_included_refuted :
  eval 0 ([T "include m.mk" 1; Ends; Open; T "#: old text" 10; T "#: new text" 11] ++ rule_line "m:" ["m"] 12 ++ [Close] ++ rule_line "all:" ["all"] 2) =
  Some [([s2l "m"], Some (s2l "new text")); ([s2l "all"], Some (s2l "old text"))].
Proof. vm_compute. reflexivity. Qed.
Print Assumptions C60_included_refuted.
(** A described target that a later rule names again, to add prerequisites, is no longer described: it is not among the tasks. *)
Theorem C60_later_rule_refuted :
  exists l said t d, reads true 0 None None l said /\ In ([t], Some d) said /\ eval 0 l = Some said /\ description t said = None /\ info_tasks isort [(t, description t said)] = [].
Proof.
  exists ([T "#: the program" 1] ++ rule_line "all: a" ["all"] 2 ++ rule_line "all: b" ["all"] 9), [([s2l "all"], Some (s2l "the program")); ([s2l "all"], None)], (s2l "all"), (s2l "the program").
  split; [|split; [left; reflexivity|vm_compute; repeat split]]. unfold rule_line, T. cbn [app map].
  assert (QQ : forall s : str, (forall d, comment (Txt 0) s <> Some (s2l "#: " ++ d)) -> quiet s) by (intros s H d D; exact (H d D)).
  ds. q QQ. apply (r_ends true 2 None). apply r_rule. q QQ. apply (r_ends true 9 (Some _) _ _ [([s2l "all"], None)]). apply r_rule. apply (r_end true 9 (Some _)). left. reflexivity.
Qed.
Print Assumptions C60_later_rule_refuted.
(** Without the space it is no description. *)
Theorem C60_space_refuted : quiet (s2l "#:the program") /\ describes (s2l "#: the program") (s2l "the program").
Proof. split; [intros d H; vm_compute in H; discriminate|vm_compute; reflexivity]. Qed.
Print Assumptions C60_space_refuted.
