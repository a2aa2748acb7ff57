(** C30, C31, C50: implicit rules. *)
From Coq Require Import Sorted.
From Verif Require Import Base M_Implicit S_Implicit P_Implicit P_Implicit2 P_Implicit3 P_Implicit4 P_Implicit5 P_Implicit6.
Open Scope string_scope.
Open Scope list_scope.
Open Scope nat_scope.

(** What [had] means for the model's test. *)
Lemma had_iff : forall lookup exists_p vpath s expl n, available lookup exists_p vpath s expl n = true <-> had lookup exists_p vpath (s_files s) expl n.
Proof. intros. unfold available, had. rewrite !orb_true_iff, !mem_iff. tauto. Qed.
Lemma direct_ext : forall rules path_max parse (A A' I : str -> Prop) U re ar n i ti r p s, (forall x, A x <-> A' x) ->
  direct rules path_max parse A I U re ar n i ti r p s <-> direct rules path_max parse A' I U re ar n i ti r p s.
Proof. intros rules path_max parse A A' I U re ar n i ti r p s H. unfold direct. split; intros (E & L & K); (split; [exact E|]; split; [exact L|]); intros m N; destruct (K m N) as [K1 K2]; (split; [exact K1|apply H; exact K2]). Qed.
Lemma sound_ext : forall rules path_max parse (A A' : list str -> str -> Prop), (forall e x, A e x -> A' e x) ->
  forall U re ar n e p, sound rules path_max parse A U re ar n e p -> sound rules path_max parse A' U re ar n e p.
Proof.
  intros rules path_max parse A A' H. fix IH 7. intros U re ar n e p S0. destruct S0 as [i ti r prefix st deps also EL LE OT ND AV SUB]. apply (s_plan rules path_max parse A' U re ar n e i ti r prefix st deps also EL LE OT ND).
  - intros D m o K. apply H. exact (AV D m o K).
  - intros D m o p K. destruct (SUB D m o p K) as [T S1]. split; [exact T|]. apply IH. exact S1.
Qed.

Lemma makeable_ext : forall rules path_max parse (A A' : str -> Prop), (forall x, A x -> A' x) ->
  forall re ar n, makeable rules path_max parse A re ar n -> makeable rules path_max parse A' re ar n.
Proof.
  intros rules path_max parse A A' H. fix IH 4. intros re ar n M. destruct M as [i ti r prefix st (E & L & D)|i ti r prefix st EL TE LE SUB].
  - apply (mk_direct rules path_max parse A' re ar n i ti r prefix st). split; [exact E|]. split; [exact L|]. intros m N. destruct (D m N) as [D1 D2]. split; [exact D1|apply H; exact D2].
  - apply (mk_chain rules path_max parse A' re ar n i ti r prefix st EL TE LE). intros m N. destruct (SUB m N) as [K|K]; [left; apply H; exact K|right; apply IH; exact K].
Qed.

(** The rule chosen.  If some rule applies as things are, the choice is the one with the
    shortest stem, and of those the earliest.  Otherwise it is the first, in the same order, of
    the rules that are not terminal of which no prerequisite turned out impossible. *)
Theorem C30_choice : forall rules path_max parse lookup exists_p vpath fuel arch name expl s s' i ti stem deps also,
  (forall r, In r rules -> well_formed r) ->
  pattern_search rules path_max parse lookup exists_p vpath fuel [] false arch name expl s = Some (s', Some (Plan i ti stem deps also)) ->
  let applies := direct rules path_max parse (had lookup exists_p vpath (s_files s) expl) (fun n => In n (s_impossible s)) [] false arch name in
  exists r prefix st, stem = prefix ++ st /\ eligible rules [] false arch name i ti r prefix st /\ length stem <= path_max /\
    ((applies i ti r prefix st /\
      forall i' ti' r' prefix' st', sooner (length (prefix' ++ st')) i' ti' (length stem) i ti -> ~ applies i' ti' r' prefix' st')
     \/
     ((forall i' ti' r' prefix' st', ~ applies i' ti' r' prefix' st') /\ r_terminal r = false /\
      forall i' ti' r' prefix' st', eligible rules [] false arch name i' ti' r' prefix' st' -> length (prefix' ++ st') <= path_max -> r_terminal r' = false ->
        sooner (length (prefix' ++ st')) i' ti' (length stem) i ti -> exists m, needs parse r' prefix' st' m /\ In m (s_impossible s'))).
Proof.
  intros rules path_max parse lookup exists_p vpath fuel arch name expl s s' i ti stem deps also WF H applies.
  destruct (search_spec rules WF path_max parse lookup exists_p vpath name arch (s_files s) (s_impossible s) fuel _ _ _ _ _ _ _ _ (re_top rules parse name arch) H) as (_ & _ & R).
  destruct R as (r & prefix & st & -> & EL & LE & C & _). exists r, prefix, st. split; [reflexivity|]. split; [exact EL|]. split; [exact LE|].
  assert (X : forall i ti r p st, direct rules path_max parse (fun n => available lookup exists_p vpath s expl n = true) (fun n => In n (s_impossible s)) [] false arch name i ti r p st <-> applies i ti r p st).
  { intros. apply direct_ext. intros x. apply had_iff. }
  destruct C as [(D & F & _)|(T & F & G)]; [left|right].
  - split; [apply X; exact D|]. intros i' ti' r' p' st' K A. exact (F i' ti' r' p' st' K (proj2 (X _ _ _ _ _) A)).
  - split; [intros i' ti' r' p' st' A; exact (F i' ti' r' p' st' (proj2 (X _ _ _ _ _) A))|]. split; [exact T|exact G].
Qed.

(** The plan holds good: the stem put into the pattern gives the name, the prerequisites are
    those of the rule in their order, each one can be had or has itself a good plan, in which the
    rules above it are not used; a terminal rule has no such plans.  (Of a rule without
    prerequisites this says nothing about the prerequisites: see C30_leftover_refuted.) *)
Theorem C30_plan : forall rules path_max parse lookup exists_p vpath fuel arch name expl s s' p,
  (forall r, In r rules -> well_formed r) ->
  pattern_search rules path_max parse lookup exists_p vpath fuel [] false arch name expl s = Some (s', Some p) ->
  sound rules path_max parse (fun e n => exists files, starts files (s_files s') /\ had lookup exists_p vpath files e n) [] false arch name expl p.
Proof.
  intros rules path_max parse lookup exists_p vpath fuel arch name expl s s' [i ti stem deps also] WF H.
  destruct (search_spec rules WF path_max parse lookup exists_p vpath name arch (s_files s) (s_impossible s) fuel _ _ _ _ _ _ _ _ (re_top rules parse name arch) H) as (_ & _ & R).
  destruct R as (r & prefix & st & _ & _ & _ & _ & _ & S0). refine (sound_ext _ _ _ _ _ _ _ _ _ _ _ _ (S0 (s_files s') (prefix_refl _ _))).
  intros e n (E & P & A). exists E. split; [exact P|]. exact (proj1 (had_iff _ _ _ (mkst E []) _ _) A).
Qed.

(** The stem put back into the pattern, after the directory, gives the name. *)
Theorem C30_stem : forall rules path_max parse lookup exists_p vpath fuel arch name expl s s' i ti stem deps also,
  (forall r, In r rules -> well_formed r) ->
  pattern_search rules path_max parse lookup exists_p vpath fuel [] false arch name expl s = Some (s', Some (Plan i ti stem deps also)) ->
  exists r pre suf dir st, nth_error rules i = Some r /\ nth_error (r_targets r) ti = Some (pre ++ c_percent :: suf, length pre) /\
    stem = dir ++ st /\ name = dir ++ pre ++ st ++ suf /\ stem <> [] /\ (dir = [] \/ exists d, dir = d ++ [c_slash]).
Proof.
  intros rules path_max parse lookup exists_p vpath fuel arch name expl s s' i ti stem deps also WF H.
  destruct (C30_choice _ _ _ _ _ _ _ _ _ _ _ _ _ _ _ _ _ WF H) as (r & prefix & st & -> & EL & _). destruct EL as ((t & C1 & _ & _ & C2 & _ & F) & _).
  inversion F as [dir base pre suf st' P ND [PT1 PT2] NS B E1 E2|dir base pre suf st' P [PT1 PT2] D B NE E1 E2]; subst; destruct t as [tx tn]; cbn [fst snd] in *; subst.
  - exists r, pre, suf, prefix, st. split; [exact C1|]. split; [exact C2|]. split; [reflexivity|]. inversion P; subst; try congruence. split; [rewrite <- app_assoc; cbn; f_equal; f_equal; assumption|].
    split; [intros K; apply app_eq_nil in K; destruct K as [K _]; congruence|]. right. eexists. reflexivity.
  - exists r, pre, suf, [], st. split; [exact C1|]. split; [exact C2|]. repeat split; auto.
Qed.

(** A rule that matches anything is chosen only if it is terminal or no specific rule fits,
    whether or not the specific one could be applied. *)
Theorem C30_specific : forall rules path_max parse lookup exists_p vpath fuel arch name expl s s' i ti stem deps also,
  (forall r, In r rules -> well_formed r) ->
  pattern_search rules path_max parse lookup exists_p vpath fuel [] false arch name expl s = Some (s', Some (Plan i ti stem deps also)) ->
  forall r t j tj r' t' prefix' st', nth_error rules i = Some r -> nth_error (r_targets r) ti = Some t -> anything t -> r_terminal r = false ->
  nth_error rules j = Some r' -> nth_error (r_targets r') tj = Some t' -> (r_deps r' = [] \/ r_cmds r' <> None) -> fits arch name t' prefix' st' -> anything t'.
Proof.
  intros rules path_max parse lookup exists_p vpath fuel arch name expl s s' i ti stem deps also WF H r t j tj r' t' prefix' st' R T A TE R' T' CM F.
  destruct (C30_choice _ _ _ _ _ _ _ _ _ _ _ _ _ _ _ _ _ WF H) as (r0 & prefix & st & -> & ((t0 & C1 & _ & _ & C2 & _) & _ & SP) & _).
  rewrite R in C1. injection C1 as <-. rewrite T in C2. injection C2 as <-. unfold anything in *. destruct (str_eqb (fst t') [c_percent]) eqn:E; [apply str_eqb_eq; exact E|exfalso].
  destruct SP as [K|K]; [|congruence|exact (K t (nth_error_In _ _ T) A)]. exists j, tj, r', t', prefix', st'. split; [|intros K; unfold anything in K; apply str_eqb_eq in K; congruence].
  split; [exact R'|]. split; [intros []|]. split; [exact CM|]. split; [exact T'|]. split; [discriminate|exact F].
Qed.

(** If nothing is found, no rule applies: each has a prerequisite that cannot be had or is marked
    as impossible, and each rule that is not terminal has one that turned out impossible. *)
Theorem C30_nothing : forall rules path_max parse lookup exists_p vpath fuel arch name expl s s',
  (forall r, In r rules -> well_formed r) ->
  pattern_search rules path_max parse lookup exists_p vpath fuel [] false arch name expl s = Some (s', None) ->
  forall i ti r prefix st, eligible rules [] false arch name i ti r prefix st -> length (prefix ++ st) <= path_max ->
    (exists m, needs parse r prefix st m /\ (In m (s_impossible s) \/ ~ had lookup exists_p vpath (s_files s) expl m)) /\
    (r_terminal r = false -> exists m, needs parse r prefix st m /\ In m (s_impossible s')).
Proof.
  intros rules path_max parse lookup exists_p vpath fuel arch name expl s s' WF H i ti r prefix st EL LE.
  destruct (search_spec rules WF path_max parse lookup exists_p vpath name arch (s_files s) (s_impossible s) fuel _ _ _ _ _ _ _ _ (re_top rules parse name arch) H) as (_ & _ & R).
  destruct (R i ti r prefix st EL LE) as [(m & N & K) T]. split; [|exact T]. exists m. split; [exact N|]. destruct K as [K|K]; [left; exact K|right]. rewrite <- had_iff, K. discriminate.
Qed.

(** The search ends, however the rules refer to each other. *)
Theorem C30_ends : forall rules path_max parse lookup exists_p vpath arch name expl s,
  (forall r, In r rules -> well_formed r) ->
  exists s' res, pattern_search rules path_max parse lookup exists_p vpath (S (length rules)) [] false arch name expl s = Some (s', res).
Proof.
  intros rules path_max parse lookup exists_p vpath arch name expl s WF.
  pose proof (search_ends rules WF path_max parse lookup exists_p vpath (S (length rules)) [] false arch name expl s) as E.
  destruct (pattern_search rules path_max parse lookup exists_p vpath (S (length rules)) [] false arch name expl s) as [[s' res]|]; [exists s', res; reflexivity|].
  exfalso. apply E; [|reflexivity]. unfold free. apply Nat.lt_succ_r. etransitivity; [|apply Nat.eq_le_incl; apply seq_length with (start := 0)].
  generalize (seq 0 (length rules)). intros l. induction l as [|a l IH]; [reflexivity|]. cbn [filter]. destruct (negb (in_list a [])); cbn [length]; lia.
Qed.

(** If no rule can serve twice in a chain, everything that can be made is found.  [rank]: a
    prerequisite of a rule fits only rules of a lower rank; terminal rules do not take part in
    chains and need no rank. *)
Theorem C30_complete : forall rules path_max parse lookup exists_p vpath rank expl name arch files fuel s' res,
  (forall r, In r rules -> well_formed r) ->
  (forall re ar m i ti r t p s n j tj r' t' p' s', candidate rules [] re ar m i ti r t p s -> r_terminal r = false -> needs parse r p s n ->
     candidate rules [] true false n j tj r' t' p' s' -> r_terminal r' = false -> rank j < rank i) ->
  (forall E E' n, vpath E n = true -> vpath (E ++ E') n = true) ->
  (forall n, In n expl -> lookup n = true) ->
  makeable rules path_max parse (had lookup exists_p vpath files expl) false arch name ->
  pattern_search rules path_max parse lookup exists_p vpath fuel [] false arch name expl (mkst files []) = Some (s', res) ->
  res <> None.
Proof.
  intros rules path_max parse lookup exists_p vpath rank expl name arch files fuel s' res WF ST MO EX MK H K. subst res.
  refine (search_complete rules WF path_max parse lookup exists_p vpath rank ST MO expl EX name arch files _ fuel s' H).
  exact (makeable_ext _ _ _ _ _ (fun x => proj2 (had_iff lookup exists_p vpath (mkst files []) expl x)) _ _ _ MK).
Qed.

(** ** C31: definitions of pattern rules *)

(** Every file the plan mentions, at any depth, is in the table of files afterwards, so that the
    engine finds it there; what was in the table stays. *)
Theorem C30_entered : forall rules path_max parse lookup exists_p vpath fuel arch name expl s s' p,
  pattern_search rules path_max parse lookup exists_p vpath fuel [] false arch name expl s = Some (s', Some p) ->
  forall n, In n (s_files s) \/ mentions p n -> In n (s_files s').
Proof.
  intros rules path_max parse lookup exists_p vpath fuel arch name expl s s' p H n K. apply search_in in H. destruct H as [B H]. destruct (H p eq_refl) as [I D]. destruct K as [K|K]; [exact (B n K)|]. exact (inner_all s' p I (D eq_refl) n K).
Qed.

(** The rules in force, each with one target, after the definitions: of each rule one definition
    counts, the last that overrides, or the first if none does; in the order of the makefile. *)
Theorem C31_definitions : forall defs, (forall r o, In (r, o) defs -> single r) ->
  exists js, StronglySorted lt js /\ (forall j, In j js <-> survives defs j) /\
    Forall2 (fun j r => exists o, nth_error defs j = Some (r, o)) js (fold_left (fun l d => new_pattern_rule (fst d) (snd d) l) defs []).
Proof. exact defined_survivors. Qed.

Definition pat_rule (targets deps : list string) (c : option nat) : rule :=
  mkrule (map (fun t : string => (s2l t, match at_percent t with Some (a, _) => length a | None => 0 end)) targets) (map (fun d : string => mkpdep d false) deps) c false.

Example C31_example :
  let defs := [(pat_rule ["%.o"] ["%.c"] (Some 1), false); (pat_rule ["%.o"] ["%.y"] (Some 2), false); (pat_rule ["%.o"] ["%.c"] (Some 3), true);
               (pat_rule ["%.o"] ["%.c"] None, true); (pat_rule ["%.o"] ["%.y"] (Some 4), false)] in
  (forall r o, In (r, o) defs -> single r) /\
  fold_left (fun l d => new_pattern_rule (fst d) (snd d) l) defs [] = [pat_rule ["%.o"] ["%.y"] (Some 2); pat_rule ["%.o"] ["%.c"] None].
Proof.
  split; [|vm_compute; reflexivity]. intros r o H. cbn [In] in H. decompose [or] H; try contradiction;
  match goal with E : _ = (r, o) |- _ => injection E as <- <- end; eexists; reflexivity.
Qed.

(** With several targets this fails in both directions: the same rule given twice is kept twice,
    so that the new recipe is never used, and a rule with more targets replaces one with fewer. *)
Theorem C31_several_targets_refuted :
  (exists r r', rule_names r = rule_names r' /\ r_cmds r <> r_cmds r' /\ fold_left (fun l d => new_pattern_rule (fst d) (snd d) l) [(r, true); (r', true)] [] = [r; r']) /\
  (exists r r', rule_names r <> rule_names r' /\ fold_left (fun l d => new_pattern_rule (fst d) (snd d) l) [(r, true); (r', true)] [] = [r']).
Proof.
  split.
  - exists (pat_rule ["%.tab.c"; "%.tab.h"] ["%.y"] (Some 1)), (pat_rule ["%.tab.c"; "%.tab.h"] ["%.y"] (Some 2)). split; [reflexivity|]. split; [discriminate|vm_compute; reflexivity].
  - exists (pat_rule ["%.x"] ["%.c"] (Some 1)), (pat_rule ["%.x"; "%.y"] ["%.c"] (Some 2)). split; [discriminate|vm_compute; reflexivity].
Qed.

(** ** C50: suffix rules *)

(** Suffix rules become exactly the pattern rules they stand for, after the rules of the
    makefile; a rule of the makefile that is the same takes precedence. *)
Theorem C50_suffix_rules : forall files posix suffixes l, ~ In [] suffixes ->
  exists extra, convert_to_pattern files posix suffixes l = l ++ extra /\ NoDup extra /\
    forall r, In r extra <-> suffix_meaning files posix suffixes r /\ ~ exists old, In old l /\ same_rule r old.
Proof. exact suffix_rules. Qed.

Definition files_of (l : list (string * (option nat * bool))) (n : str) : option (option nat * bool) :=
  match find (fun e => str_eqb (s2l (fst e)) n) l with Some e => Some (snd e) | None => None end.
Example C50_example :
  convert_to_pattern (files_of [(".c.o", (Some 1, false)); (".c", (Some 2, false)); (".o.a", (Some 3, false)); (".y.c", (None, false)); (".o.c", (Some 4, true))]) true
    [s2l ".c"; s2l ".o"; s2l ".a"; s2l ".y"] [pat_rule ["%.o"] ["%.c"] (Some 9)] =
  [pat_rule ["%.o"] ["%.c"] (Some 9); pat_rule ["%.c"] [] None; pat_rule ["%"] ["%.c"] (Some 2); pat_rule ["%.o"] [] None;
   pat_rule ["(%.o)"] ["%.o"] (Some 3); pat_rule ["%.a"] ["%.o"] (Some 3); pat_rule ["%.a"] [] None; pat_rule ["%.y"] [] None].
Proof. vm_compute. reflexivity. Qed.

(** ** Searches *)

Definition names_in (l : list string) (n : str) : bool := existsb (fun e : string => str_eqb e n) l.
Definition search (rules : list rule) (there : list string) (name : string) : option (option plan) :=
  option_map snd (try_implicit_rule rules 4096 (fun x => [x]) (fun _ => false) (names_in there) (fun _ _ => false) (S (length rules)) name [] (mkst [] [])).
Definition had_dep (n : string) : str * bool * option plan := (s2l n, false, None).

(** The shortest stem, then the earliest rule; a rule with missing prerequisites is passed over;
    chains; members of archives. *)
Example C30_example :
  let rules := [pat_rule ["%.o"] ["%.c"] (Some 1); pat_rule ["lib%.o"] ["lib%.x"] (Some 2); pat_rule ["%.o"] ["%.s"] (Some 3); pat_rule ["%.c"] ["%.y"] (Some 4); pat_rule ["(%.o)"] ["%.o"] (Some 5)] in
  search rules ["libfoo.c"; "libfoo.x"; "libfoo.s"] "libfoo.o" = Some (Some (Plan 1 0 (s2l "foo") [had_dep "libfoo.x"] [])) /\
  search rules ["libfoo.c"; "libfoo.s"] "libfoo.o" = Some (Some (Plan 0 0 (s2l "libfoo") [had_dep "libfoo.c"] [])) /\
  search rules ["d/foo.s"] "d/foo.o" = Some (Some (Plan 2 0 (s2l "d/foo") [had_dep "d/foo.s"] [])) /\
  search rules ["foo.y"] "foo.o" = Some (Some (Plan 0 0 (s2l "foo") [(s2l "foo.c", false, Some (Plan 3 0 (s2l "foo") [had_dep "foo.y"] []))] [])) /\
  search rules ["foo.o"] "l.a(foo.o)" = Some (Some (Plan 4 0 (s2l "foo") [had_dep "foo.o"] [])) /\
  search rules ["foo.f"] "foo.o" = Some None.
Proof. vm_compute. repeat split. Qed.
(** The table of files after the chain above. *)
Example C30_entered_example :
  option_map (fun r => s_files (fst r)) (pattern_search [pat_rule ["%.o"] ["%.c"] (Some 1); pat_rule ["%.c"] ["%.y"] (Some 4)] 4096 (fun x => [x]) (fun _ => false) (names_in ["foo.y"]) (fun _ _ => false) 3 [] false false (s2l "foo.o") [] (mkst [s2l "z"] []))
  = Some [s2l "z"; s2l "foo.c"; s2l "foo.y"; s2l "foo.c"].
Proof. vm_compute. reflexivity. Qed.
Example C30_specific_example :
  let rules := [pat_rule ["%"] ["%,v"] (Some 1); pat_rule ["%.c"] [] None; mkrule [(s2l "%", 0)] [mkpdep "s.%" false] (Some 2) true] in
  search rules ["foo,v"] "foo" = Some (Some (Plan 0 0 (s2l "foo") [had_dep "foo,v"] [])) /\
  search rules ["foo.c,v"] "foo.c" = Some None /\
  search rules ["foo.c,v"; "s.foo.c"] "foo.c" = Some (Some (Plan 2 0 (s2l "foo.c") [had_dep "s.foo.c"] [])) /\
  (** .EXTRA_PREREQS gives the dummy rule a prerequisite, so it is not specific any more. *)
  search (snap_implicit_rules [s2l "x"] rules) ["foo.c,v"; "x"] "foo.c" = Some (Some (Plan 0 0 (s2l "foo.c") [had_dep "foo.c,v"; had_dep "x"] [])).
Proof. vm_compute. repeat split. Qed.

(** A rule without prerequisites gets those that an earlier rule had collected when it failed. *)
Theorem C30_leftover_refuted : exists rules s' i ti stem deps also,
  (forall r, In r rules -> well_formed r) /\
  pattern_search rules 4096 (fun x => [x]) (fun _ => false) (names_in ["config.h"]) (fun _ _ => false) 3 [] false false (s2l "foo.o") [] (mkst [] []) = Some (s', Some (Plan i ti stem deps also)) /\
  (exists r, nth_error rules i = Some r /\ r_deps r = []) /\ deps = [had_dep "config.h"].
Proof.
  exists [pat_rule ["%.o"] ["config.h"; "%.c"] (Some 1); pat_rule ["%.o"] [] (Some 2)]. do 6 eexists. split; [|split; [vm_compute; reflexivity|split; [eexists; split; reflexivity|reflexivity]]].
  intros r [<-|[<-|[]]]; intros t [<-|[]]; exists [], (s2l ".o"); split; reflexivity.
Qed.

(** The other targets of a rule do not fit the rule with the same directory and stem. *)
Theorem C30_other_target_refuted : exists r s' stem deps also,
  pattern_search [r] 4096 (fun x => [x]) (fun _ => false) (names_in ["d/foo.y"]) (fun _ _ => false) 3 [] false false (s2l "d/afoo.x") [] (mkst [] []) = Some (s', Some (Plan 0 0 stem deps [also])) /\
  fits false (s2l "d/afoo.x") (s2l "a%.x", 1) (s2l "d/") (s2l "foo") /\ nth_error (r_targets r) 1 = Some (s2l "b%.z", 1) /\
  fits false (s2l "d/bfoo.z") (s2l "b%.z", 1) (s2l "d/") (s2l "foo") /\ also = s2l "bd/foo.z".
Proof.
  assert (NM : forall n : str, existsb (fun c => c =?c c_rparen) n = false -> ~ (false = true \/ member_reference n)).
  { intros n E [K|(a & m & -> & _)]; [discriminate|]. rewrite <- not_true_iff_false in E. apply E. apply existsb_exists. exists c_rparen. split; [|apply eqc_refl]. apply in_or_app. right. right. apply in_or_app. right. left. reflexivity. }
  exists (pat_rule ["a%.x"; "b%.z"] ["%.y"] (Some 1)). do 4 eexists. split; [vm_compute; reflexivity|]. split; [|split; [reflexivity|split; [|reflexivity]]].
  - apply (f_base false (s2l "d/afoo.x") (s2l "a%.x", 1) (s2l "d/") (s2l "afoo.x") (s2l "a") (s2l ".x") (s2l "foo")).
    + apply (p_dir _ (s2l "d") (s2l "afoo.x")); [apply NM; reflexivity|discriminate|cbn; intuition discriminate].
    + discriminate.
    + split; reflexivity.
    + cbn. intuition discriminate.
    + reflexivity.
  - apply (f_base false (s2l "d/bfoo.z") (s2l "b%.z", 1) (s2l "d/") (s2l "bfoo.z") (s2l "b") (s2l ".z") (s2l "foo")).
    + apply (p_dir _ (s2l "d") (s2l "bfoo.z")); [apply NM; reflexivity|discriminate|cbn; intuition discriminate].
    + discriminate.
    + split; reflexivity.
    + cbn. intuition discriminate.
    + reflexivity.
Qed.
(** The stem of a name without directory is not empty, that of a name with a directory may be
    just the directory. *)
Theorem C30_empty_stem_refuted :
  let rules := [pat_rule ["foo%.c"] ["bar%.x"] (Some 1)] in
  search rules ["bar.x"; "d/bar.x"] "foo.c" = Some None /\
  search rules ["bar.x"; "d/bar.x"] "d/foo.c" = Some (Some (Plan 0 0 (s2l "d/") [had_dep "d/bar.x"] [])).
Proof. vm_compute. split; reflexivity. Qed.

(** There may be a chain in which no rule is used twice and yet the search finds none: a name that
    could not be made while a rule was in use stays marked as impossible. *)
Lemma no_member : forall n : str, existsb (fun c => c =?c c_rparen) n = false -> ~ (false = true \/ member_reference n).
Proof.
  intros n E [K|(a & m & -> & _)]; [discriminate|]. rewrite <- not_true_iff_false in E. apply E. apply existsb_exists. exists c_rparen. split; [|apply eqc_refl].
  apply in_or_app. right. right. apply in_or_app. right. left. reflexivity.
Qed.
Lemma fits_plain : forall (pre st suf : str), ~ In c_slash (removelast (pre ++ st ++ suf)) -> existsb (fun c => c =?c c_rparen) (pre ++ st ++ suf) = false -> st <> [] ->
  fits false (pre ++ st ++ suf) (pre ++ c_percent :: suf, length pre) [] st.
Proof.
  intros pre st suf NS NP NE. apply (f_whole false _ _ [] (pre ++ st ++ suf) pre suf st); [|split; reflexivity|left; reflexivity|reflexivity|exact NE].
  apply p_none; [apply no_member; exact NP|exact NS].
Qed.
Theorem C30_incomplete_refuted : exists rules there name p s',
  (forall r, In r rules -> well_formed r) /\
  sound rules 4096 (fun x => [x]) (had (fun _ => false) (names_in there) (fun _ _ => false) []) [] false false name [] p /\
  pattern_search rules 4096 (fun x => [x]) (fun _ => false) (names_in there) (fun _ _ => false) 3 [] false false name [] (mkst [] []) = Some (s', None).
Proof.
  exists [pat_rule ["%.p"] ["%.q.p"] (Some 1); pat_rule ["u.%"] ["u.q.p"] (Some 2)], ["u.q.q.p"], (s2l "u.p"),
    (Plan 1 0 (s2l "p") [(s2l "u.q.p", false, Some (Plan 0 0 (s2l "u.q") [had_dep "u.q.q.p"] []))] []).
  eexists. split; [|split; [|vm_compute; reflexivity]].
  { intros r [<-|[<-|[]]]; intros t [<-|[]]; [exists [], (s2l ".p")|exists (s2l "u."), []]; split; reflexivity. }
  assert (NA : forall r, r_targets r = [(s2l "%.p", 0)] \/ r_targets r = [(s2l "u.%", 2)] -> forall t, In t (r_targets r) -> ~ anything t).
  { intros r [-> | ->] t [<-|[]]; discriminate. }
  apply (s_plan _ _ _ _ [] false false _ [] 1 0 (pat_rule ["u.%"] ["u.q.p"] (Some 2)) [] (s2l "p")).
  - split; [|split; [discriminate|intros _; right; apply NA; right; reflexivity]]. exists (s2l "u.%", 2). split; [reflexivity|]. split; [intros []|]. split; [right; discriminate|]. split; [reflexivity|]. split; [discriminate|].
    apply (fits_plain (s2l "u.") (s2l "p") []); [cbn; intuition discriminate|reflexivity|discriminate].
  - cbn. lia.
  - apply o_same. apply o_nil.
  - intros _. apply (n_cons (fun x => [x]) [] (s2l "p") (mkpdep (s2l "u.q.p") false) [] (s2l "u.q.p") []); [apply i_plain; cbn; intuition discriminate|apply n_nil].
  - intros _ n o [K|[]]. discriminate.
  - intros _ n o p [K|[]]. injection K as <- <- <-. split; [reflexivity|].
    apply (s_plan _ _ _ _ [1] true false _ [] 0 0 (pat_rule ["%.p"] ["%.q.p"] (Some 1)) [] (s2l "u.q")).
    + split; [|split; [discriminate|intros _; right; apply NA; left; reflexivity]]. exists (s2l "%.p", 0). split; [reflexivity|]. split; [intros [K|[]]; discriminate|]. split; [right; discriminate|]. split; [reflexivity|]. split; [intros _ K; discriminate|].
      apply (fits_plain [] (s2l "u.q") (s2l ".p")); [cbn; intuition discriminate|reflexivity|discriminate].
    + cbn. lia.
    + apply o_same. apply o_nil.
    + intros _. apply (n_cons (fun x => [x]) [] (s2l "u.q") (mkpdep (s2l "%.q.p") false) [] (s2l "u.q.q.p") []); [apply (i_stem [] (s2l "u.q") [] (s2l ".q.p")); intros []|apply n_nil].
    + intros _ n o [K|[]]. injection K as <- <-. right. right. right. left. reflexivity.
    + intros _ n o p [K|[]]. discriminate.
Qed.

(** The hypotheses of [C30_complete] are met. *)
Lemma fits_end : forall arch name pre suf p st, ~ In c_percent pre -> ~ In c_percent suf -> fits arch name (pre ++ c_percent :: suf, length pre) p st -> exists z, name = z ++ suf.
Proof.
  intros arch name pre suf p st N1 N2 F. assert (U : forall pre' suf', pattern (pre ++ c_percent :: suf, length pre) pre' suf' -> suf' = suf).
  { intros pre' suf' [H L]. cbn [fst snd] in *. clear F. revert pre' L H N1. induction pre as [|c pre IH]; intros [|c' pre'] L H N1; cbn in *; try discriminate; [injection H; auto|]. injection H as -> H. apply (IH pre'); [lia|exact H|tauto]. }
  inversion F as [dir base pre' suf' st' P ND PT NS B E1 E2|dir base pre' suf' st' P PT D B NE E1 E2]; apply U in PT; subst.
  - inversion P; subst; try congruence. exists ((d ++ [c_slash]) ++ pre' ++ st). rewrite <- !app_assoc. reflexivity.
  - exists (pre' ++ st). rewrite <- app_assoc. reflexivity.
Qed.
Example C30_complete_example :
  let rules := [pat_rule ["%.o"] ["%.c"] (Some 1); pat_rule ["%.c"] ["%.y"] (Some 4)] in
  let lookup := fun _ : str => false in
  (forall r, In r rules -> well_formed r) /\
  (forall re ar m i ti r t p s n j tj r' t' p' s', candidate rules [] re ar m i ti r t p s -> needs (fun x => [x]) r p s n ->
     candidate rules [] true false n j tj r' t' p' s' -> 2 - j < 2 - i) /\
  makeable rules 4096 (fun x => [x]) (had lookup (names_in ["foo.y"]) (fun _ _ => false) [] []) false false (s2l "foo.o").
Proof.
  cbn zeta. split; [|split].
  - intros r [<-|[<-|[]]]; intros t [<-|[]]; exists []; eexists; split; reflexivity.
  - intros re ar m i ti r t p s n j tj r' t' p' s' (C1 & _) (d & x & D & I & [<-|[]]) (C1' & _ & _ & C4' & _ & F).
    assert (IE : forall suf, pd_name d = c_percent :: suf -> exists y, x = y ++ suf).
    { intros suf N. rewrite N in I. inversion I as [n0 K|a0 b0 K E0]; [exfalso; apply K; left; reflexivity|]. destruct a0 as [|c0 a0]; [|injection E0 as -> _; exfalso; apply K; left; reflexivity].
      injection E0 as ->. exists (p ++ s). rewrite <- app_assoc. reflexivity. }
    assert (FE : forall suf, ~ In c_percent suf -> t' = (c_percent :: suf, 0) -> exists z, x = z ++ suf).
    { intros suf N ->. exact (fits_end false x [] suf p' s' (fun K => K) N F). }
    assert (DIFF : forall (y z : str) (a b : ascii), a <> b -> y ++ [c_dot; a] <> z ++ [c_dot; b]).
    { intros y z a b N E. change [c_dot; a] with ([c_dot] ++ [a]) in E. change [c_dot; b] with ([c_dot] ++ [b]) in E. rewrite !app_assoc in E. apply app_inj_tail in E. tauto. }
    assert (J : (j = 0 /\ t' = (s2l "%.o", 0)) \/ (j = 1 /\ t' = (s2l "%.c", 0))).
    { destruct j as [|[|[|j]]]; try discriminate; injection C1' as <-; (destruct tj as [|[|tj]]; [injection C4' as <-; auto|discriminate|discriminate]). }
    assert (K : (i = 0 /\ pd_name d = s2l "%.c") \/ (i = 1 /\ pd_name d = s2l "%.y")).
    { destruct i as [|[|[|i]]]; try discriminate; injection C1 as <-; destruct D as [<-|[]]; auto. }
    destruct J as [[-> T]|[-> T]]; destruct K as [[-> N]|[-> N]]; try lia; exfalso;
      (first [destruct (IE (s2l ".c") N) as [y Y]|destruct (IE (s2l ".y") N) as [y Y]]; first [destruct (FE (s2l ".o") ltac:(cbn; intuition discriminate) T) as [z Z]|destruct (FE (s2l ".c") ltac:(cbn; intuition discriminate) T) as [z Z]]; rewrite Y in Z; revert Z; apply DIFF; discriminate).
  - apply (mk_chain _ _ _ _ _ _ _ 0 0 (pat_rule ["%.o"] ["%.c"] (Some 1)) [] (s2l "foo")); [|reflexivity|cbn; lia|].
    + split; [|split; [discriminate|intros _; right; intros t [<-|[]]; discriminate]]. exists (s2l "%.o", 0). split; [reflexivity|]. split; [intros []|]. split; [right; discriminate|]. split; [reflexivity|]. split; [discriminate|].
      apply (fits_plain [] (s2l "foo") (s2l ".o")); [cbn; intuition discriminate|reflexivity|discriminate].
    + intros n (d & x & [<-|[]] & I & [<-|[]]). right. assert (x = s2l "foo.c") as ->.
      { cbn [pd_name] in I. inversion I as [n0 K|a0 b0 K E0]; [exfalso; apply K; left; reflexivity|]. destruct a0 as [|c0 a0]; [|injection E0 as -> _; exfalso; apply K; left; reflexivity]. injection E0 as ->. reflexivity. }
      apply (mk_direct _ _ _ _ _ _ _ 1 0 (pat_rule ["%.c"] ["%.y"] (Some 4)) [] (s2l "foo")). split; [|split; [cbn; lia|]].
      * split; [|split; [discriminate|intros _; right; intros t [<-|[]]; discriminate]]. exists (s2l "%.c", 0). split; [reflexivity|]. split; [intros []|]. split; [right; discriminate|]. split; [reflexivity|]. split; [intros _ K; discriminate|].
        apply (fits_plain [] (s2l "foo") (s2l ".c")); [cbn; intuition discriminate|reflexivity|discriminate].
      * intros n (d & x & [<-|[]] & I' & [<-|[]]). split; [intros []|]. right. right. right. left. cbn [pd_name] in I'.
        inversion I' as [n0 K|a0 b0 K E0]; [exfalso; apply K; left; reflexivity|]. destruct a0 as [|c0 a0]; [|injection E0 as -> _; exfalso; apply K; left; reflexivity]. injection E0 as ->. reflexivity.
Qed.

Print Assumptions C30_choice.
Print Assumptions C30_plan.
Print Assumptions C30_stem.
Print Assumptions C30_specific.
Print Assumptions C30_nothing.
Print Assumptions C30_ends.
Print Assumptions C30_complete.
Print Assumptions C30_entered.
Print Assumptions C30_leftover_refuted.
Print Assumptions C30_other_target_refuted.
Print Assumptions C30_empty_stem_refuted.
Print Assumptions C30_incomplete_refuted.
Print Assumptions C31_definitions.
Print Assumptions C31_several_targets_refuted.
Print Assumptions C50_suffix_rules.
