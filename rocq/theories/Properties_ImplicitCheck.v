(** The tests that W_Implicit computes follow from the theorems of Properties_Implicit. *)
From Coq Require Import NArith Sorted Lia.
From Verif Require Import Base M_Implicit S_Implicit Properties_Implicit S_Timely Properties_Timely S_ImplicitCheck P_ImplicitCheck W_Random W_Implicit.
Open Scope list_scope.
Open Scope nat_scope.

Definition b_well (rules : list rule) : bool := forallb (fun r => forallb (fun t => negb (match pattern_list t with [] => true | _ => false end)) (r_targets r)) rules.
Lemma well_iff rules : b_well rules = true -> forall r, In r rules -> well_formed r.
Proof.
  unfold b_well. rewrite forallb_forall. intros H r R t T. specialize (H r R). rewrite forallb_forall in H. specialize (H t T).
  destruct (pattern_list t) as [|[pre suf] l] eqn:E; [discriminate|]. exists pre, suf. apply pattern_iff. rewrite E. left. reflexivity.
Qed.

(** One search. *)
Theorem C30_check : forall rules path_max parse lookup exists_p vpath arch name expl s,
  (forall r, In r rules -> well_formed r) -> t_search rules path_max parse lookup exists_p vpath arch name expl s = true.
Proof.
  intros rules path_max parse lookup exists_p vpath arch name expl s WF. unfold t_search.
  destruct (C30_ends rules path_max parse lookup exists_p vpath arch name expl s WF) as (s' & res & E). rewrite E. destruct res as [[i ti stem deps also]|].
  - apply andb_true_iff. split; [apply andb_true_iff; split|].
    + destruct (C30_choice _ _ _ _ _ _ _ _ _ _ _ _ _ _ _ _ _ WF E) as (r & p & st & -> & EL & LE & C). unfold t_choice. apply existsb_exists. exists (mkent i ti r p st).
      split; [apply eligible_iff; exact EL|]. unfold e_len at 1. cbn [e_i e_ti e_p e_s e_r]. rewrite !Nat.eqb_refl, str_eqb_refl. apply Nat.leb_le in LE. rewrite LE. cbn [andb].
      assert (X : forall i' ti' r' p' s0, eligible rules [] false arch name i' ti' r' p' s0 ->
        b_direct path_max parse (b_had lookup exists_p vpath (s_files s) expl) (fun n => b_in n (s_impossible s)) (mkent i' ti' r' p' s0) = true <->
        direct rules path_max parse (had lookup exists_p vpath (s_files s) expl) (fun n => In n (s_impossible s)) [] false arch name i' ti' r' p' s0).
      { intros. apply direct_iff; [intros x; apply had_iff'|intros x; apply b_in_iff|assumption]. }
      apply orb_true_iff. destruct C as [(D & F)|(F & T & G)]; [left|right].
      * apply andb_true_iff. split; [apply X; assumption|]. apply forallb_forall. intros [i' ti' r' p' s0] EL'. apply eligible_iff in EL'. apply negb_true_iff.
        destruct (b_sooner _ _) eqn:SO; [|reflexivity]. cbn [andb]. apply sooner_iff in SO. destruct (b_direct _ _ _ _ _) eqn:B; [|reflexivity]. apply X in B; [|exact EL']. destruct (F _ _ _ _ _ SO B).
      * apply andb_true_iff. split; [apply andb_true_iff; split|].
        -- apply forallb_forall. intros [i' ti' r' p' s0] EL'. apply eligible_iff in EL'. apply negb_true_iff. destruct (b_direct _ _ _ _ _) eqn:B; [|reflexivity]. apply X in B; [|exact EL']. destruct (F _ _ _ _ _ B).
        -- rewrite T. reflexivity.
        -- apply forallb_forall. intros [i' ti' r' p' s0] EL'. apply eligible_iff in EL'. apply orb_true_iff. unfold e_len at 1. cbn [e_p e_s e_r].
           destruct (length (p' ++ s0) <=? path_max) eqn:L; [|left; reflexivity]. destruct (r_terminal r') eqn:T'; [left; reflexivity|]. cbn [negb andb].
           destruct (b_sooner _ _) eqn:SO; [right|left; reflexivity]. apply sooner_iff in SO. apply Nat.leb_le in L. destruct (G _ _ _ _ _ EL' L T' SO) as (m & N & I).
           apply (needs_iff parse i' ti') in N. destruct N as (o & N). apply existsb_exists. exists (m, o). split; [exact N|]. apply b_in_iff. exact I.
    + refine (sound_test rules path_max parse _ _ _ _ _ _ _ _ _ (C30_plan _ _ _ _ _ _ _ _ _ _ _ _ _ WF E)). intros e x (files & (l & S1) & H). unfold b_sometime. apply existsb_exists.
      exists (length files). split; [apply in_seq; rewrite S1, app_length; lia|]. rewrite S1, firstn_app_len. apply had_iff'. exact H.
    + apply forallb_forall. intros n N. apply b_in_iff. apply (C30_entered _ _ _ _ _ _ _ _ _ _ _ _ _ E). apply in_app_or in N. destruct N as [N|N]; [left; exact N|right; apply mention_list_iff; exact N].
  - unfold t_nothing. apply forallb_forall. intros [i ti r p st] EL. apply eligible_iff in EL. unfold e_len. cbn [e_p e_s e_r]. destruct (length (p ++ st) <=? path_max) eqn:L; [|reflexivity].
    apply Nat.leb_le in L. cbn [negb orb]. destruct (C30_nothing _ _ _ _ _ _ _ _ _ _ _ _ WF E _ _ _ _ _ EL L) as [(m & N & K) T]. apply andb_true_iff. split.
    + apply (needs_iff parse i ti) in N. destruct N as (o & N). apply existsb_exists. exists (m, o). split; [exact N|]. cbn [fst]. apply orb_true_iff. destruct K as [K|K]; [left; apply b_in_iff; exact K|right].
      apply negb_true_iff. destruct (b_had _ _ _ _ _ m) eqn:B; [apply had_iff' in B; tauto|reflexivity].
    + apply orb_true_iff. destruct (r_terminal r); [left; reflexivity|right]. destruct (T eq_refl) as (m' & N' & I). apply (needs_iff parse i ti) in N'. destruct N' as (o & N'). apply existsb_exists. exists (m', o).
      split; [exact N'|]. apply b_in_iff. exact I.
Qed.
Print Assumptions C30_check.

(** Rules in layers. *)
Lemma after_percent_some s x : after_percent s = Some x -> s = c_percent :: x /\ ~ In c_percent x.
Proof.
  destruct s as [|c s]; [discriminate|]. cbn [after_percent]. destruct (c =?c c_percent) eqn:C; [|discriminate]. apply eqc_true in C. subst. destruct (b_char c_percent s) eqn:B; [discriminate|].
  cbn. intros H. injection H as <-. split; [reflexivity|]. apply b_char_not. exact B.
Qed.
Lemma ends_both {A} (a b c d : list A) : a ++ b = c ++ d -> (exists x, b = x ++ d) \/ exists x, d = x ++ b.
Proof.
  revert c. induction a as [|x a IH]; intros c E.
  - left. exists c. exact E.
  - destruct c as [|y c]; [right; exists (x :: a); symmetry; exact E|]. cbn in E. injection E as _ E. exact (IH c E).
Qed.
Lemma ends_with_app y x : ends_with x (y ++ x) = true.
Proof. unfold ends_with. rewrite app_length. replace (length y + length x - length x) with (length y) by lia. rewrite skipn_app_len. apply str_eqb_refl. Qed.
Lemma tame_rule rules i r : tame rules = true -> nth_error rules i = Some r ->
  (exists x, r_targets r = [(c_percent :: x, 0)] /\ ~ In c_percent x) /\
  forall d, r_terminal r = false -> In d (r_deps r) -> exists x, pd_name d = c_percent :: x /\ ~ In c_percent x /\
    forall j r' t' k l, nth_error rules j = Some r' -> r_terminal r' = false -> r_targets r' = (t', k) :: l -> i < j \/ ends_with (tl t') x || ends_with x (tl t') = false.
Proof.
  unfold tame. rewrite forallb_forall. intros H R. assert (I : In i (seq 0 (length rules))) by (apply in_seq; split; [lia|]; apply nth_error_Some; congruence).
  specialize (H i I). rewrite R in H. apply andb_true_iff in H. destruct H as [H1 H2]. split.
  - destruct (r_targets r) as [|[t [|k]] [|? ?]]; try discriminate. destruct (after_percent t) as [x|] eqn:E; [|discriminate]. apply after_percent_some in E. destruct E as [-> E]. exists x. auto.
  - intros d T D. rewrite T in H2. cbn [orb] in H2. rewrite forallb_forall in H2. specialize (H2 d D). destruct (after_percent (pd_name d)) as [x|] eqn:E; [|discriminate]. apply after_percent_some in E. destruct E as [E N]. exists x. split; [exact E|]. split; [exact N|].
    intros j r' t' k l R' T' TA. rewrite forallb_forall in H2. assert (J : In j (seq 0 (length rules))) by (apply in_seq; split; [lia|]; apply nth_error_Some; congruence).
    specialize (H2 j J). rewrite R', TA, T' in H2. cbn [orb] in H2. apply orb_true_iff in H2. destruct H2 as [K|K]; [left; apply Nat.ltb_lt; exact K|right; apply negb_true_iff; exact K].
Qed.
Theorem C30_complete_check : forall rules path_max exists_p files name, t_complete rules path_max exists_p files name = true.
Proof.
  intros rules path_max exists_p files name. unfold t_complete. destruct (tame rules) eqn:TA; [|reflexivity]. cbn [andb]. destruct (b_makeable _ _ _ _ _ _ _ name) eqn:MK; [|reflexivity]. cbn [negb orb].
  assert (WF : forall r, In r rules -> well_formed r).
  { intros r R. destruct (In_nth_error _ _ R) as [i N]. destruct (proj1 (tame_rule rules i r TA N)) as (x & T & _). intros t K. rewrite T in K. destruct K as [<-|[]]. exists [], x. split; reflexivity. }
  destruct (pattern_search _ _ _ _ _ _ _ _ _ _ _ _ _) as [[s' res]|] eqn:E; [|reflexivity]. destruct res; [reflexivity|exfalso].
  refine (C30_complete rules path_max (fun x => [x]) (fun _ => false) exists_p (fun _ _ => false) (fun i => length rules - i) [] name false files _ s' None WF _ _ _ _ E eq_refl).
  - intros re ar m i ti r t p s n j tj r' t' p' s0 (C1 & _ & _ & _) NT (d & x & D & I & N) (C1' & _ & _ & C4' & _ & F) NT'. destruct N as [<-|[]].
    destruct (proj2 (tame_rule rules i r TA C1) d NT D) as (y & PD & NP & J). destruct (proj1 (tame_rule rules j r' TA C1')) as (z & T & NZ).
    rewrite T in C4'. destruct tj as [|[|tj]]; try discriminate. injection C4' as <-.
    assert (LJ : j < length rules) by (apply nth_error_Some; congruence).
    destruct (J j r' _ _ _ C1' NT' T) as [K|K]; [lia|exfalso]. cbn [tl] in K. apply orb_false_iff in K. destruct K as [K1 K2].
    assert (X : exists u, x = u ++ y). { rewrite PD in I. apply b_instance_iff in I. cbn [b_instance] in I. rewrite eqc_refl in I. exists (p ++ s). rewrite I, <- app_assoc. reflexivity. }
    assert (Z : exists u, x = u ++ z). { exact (fits_end false x [] z p' s0 (fun K => K) NZ F). }
    destruct X as [u X]. destruct Z as [w Z]. rewrite X in Z. destruct (ends_both _ _ _ _ Z) as [[v V]|[v V]]; subst.
    + rewrite ends_with_app in K1. discriminate.
    + rewrite ends_with_app in K2. discriminate.
  - intros. assumption.
  - intros n [].
  - apply makeable_test in MK. refine (makeable_ext _ _ _ _ _ _ _ _ _ MK). intros x K. unfold had. apply orb_true_iff in K. rewrite b_in_iff in K. tauto.
Qed.
Print Assumptions C30_complete_check.

(** The times at which files are had and entered. *)
Lemma some_iff {A} (f : A -> bool) l : some f l = true <-> exists a, In a l /\ f a = true.
Proof.
  induction l as [|a l IH]; cbn [some]; [split; [discriminate|intros (a & [] & _)]|]. destruct (f a) eqn:E; [split; [exists a; split; [left; reflexivity|exact E]|reflexivity]|].
  rewrite IH. split; intros (b & B & H); exists b; (split; [|exact H]); [right; exact B|]. destruct B as [<-|B]; [congruence|exact B].
Qed.
Lemma every_iff {A} (f : A -> bool) l : every f l = true <-> forall a, In a l -> f a = true.
Proof.
  induction l as [|a l IH]; cbn [every]; [split; [intros _ a []|reflexivity]|]. destruct (f a) eqn:E.
  - rewrite IH. split; [intros H b [<-|B]; [exact E|exact (H b B)]|intros H b B; apply H; right; exact B].
  - split; [discriminate|]. intros H. rewrite <- E. apply H. left. reflexivity.
Qed.
Lemma tables_in (F f G : list str) : starts F f -> starts f G -> In f (tables F G).
Proof.
  intros [a ->] [b ->]. unfold tables. apply in_map_iff. exists (length (F ++ a)). split; [apply firstn_app_len|]. apply in_seq. rewrite !app_length. lia.
Qed.
Lemma mentioned p n : mentions p n -> In n (mention_list p).
Proof.
  induction 1 as [i ti st deps also n o x I|i ti st deps also n I|i ti st deps also n o q m I M IH]; cbn [mention_list]; apply in_or_app; [left| right; exact I|left].
  - induction deps as [|[[n' o'] [q|]] deps IHd]; [destruct I| |]; (destruct I as [E|I]; [injection E as -> _ _; left; reflexivity|]); right; [apply in_or_app; right|]; exact (IHd I).
  - induction deps as [|[[n' o'] [q'|]] deps IHd]; [destruct I| |]; (destruct I as [E|I]; [try discriminate|]).
    + injection E as -> -> ->. right. apply in_or_app. left. exact IH.
    + right. apply in_or_app. right. exact (IHd I).
    + right. exact (IHd I).
Qed.
Lemma timely_grows rules lookup exists_p vpath top F expl p G : timely rules lookup exists_p vpath top F expl p G -> starts F G.
Proof. intros H. destruct H as [top F expl i ti stem deps also mid added S1]. destruct S1 as [a ->]. exists (a ++ added). symmetry. apply app_assoc. Qed.
Lemma timely_test rules lookup exists_p vpath : forall depth top F expl p G, timely rules lookup exists_p vpath top F expl p G -> b_timely rules lookup exists_p vpath depth top F expl p G = true.
Proof.
  induction depth as [|depth IH]; intros top F expl p G H; [reflexivity|]. destruct H as [top F expl i ti stem deps also mid added S1 AD AL SU NO PL TO]. cbn [b_timely]. apply some_iff. exists mid.
  split; [apply tables_in; [exact S1|exists added; reflexivity]|]. cbv zeta. rewrite skipn_app_len.
  replace (every (fun n => b_in n (mention_list (Plan i ti stem deps also))) added) with true by (symmetry; apply every_iff; intros n N; apply b_in_iff, mentioned, AD; exact N).
  replace (every (fun n => b_in n added) also) with true by (symmetry; apply every_iff; intros n N; apply b_in_iff, AL; exact N).
  match goal with |- (if every ?f deps then _ else _) = true => replace (every f deps) with true end.
  2:{ symmetry. apply every_iff. intros [[n o] [q|]] N; [|reflexivity]. destruct (SU n o q N) as [A B]. apply b_in_iff in A. rewrite A. apply every_iff. intros [[m o'] x] X. apply b_in_iff. exact (B m o' x X). }
  match goal with |- (if ?b then _ else _) = true => replace b with true end.
  2:{ symmetry. destruct top; [|reflexivity]. apply every_iff. intros [[n o] x] N. apply b_in_iff. exact (TO eq_refl n o x N). }
  destruct (nth_error rules i) as [r|] eqn:R; [|reflexivity]. destruct (r_deps r) as [|d ds] eqn:DS; [reflexivity|]. assert (HP : has_prereqs rules i) by (exists r; split; [exact R|congruence]).
  apply every_iff. intros [[n o] [q|]] N.
  - destruct (PL HP n o q N) as (f & g & A & B & C & D). apply some_iff. exists f. pose proof (timely_grows _ _ _ _ _ _ _ _ _ D) as E. split; [apply tables_in; [exact A|exact (starts_trans _ _ _ E B)]|].
    destruct (b_had lookup exists_p vpath f expl n) eqn:BH; [apply had_iff' in BH; tauto|]. apply some_iff. exists g. split; [apply tables_in; assumption|]. apply IH. exact D.
  - destruct (NO HP n o N) as (f & A & B & C). apply some_iff. exists f. split; [apply tables_in; assumption|]. apply had_iff'. exact C.
Qed.
Theorem C30_timely_check : forall rules path_max parse lookup exists_p vpath depth arch name expl s,
  (forall r, In r rules -> well_formed r) -> t_timely rules path_max parse lookup exists_p vpath depth arch name expl s = true.
Proof.
  intros rules path_max parse lookup exists_p vpath depth arch name expl s WF. unfold t_timely. destruct (pattern_search _ _ _ _ _ _ _ _ _ _ _ _ _) as [[s' [p|]]|] eqn:E; [|reflexivity..].
  apply timely_test. exact (C30_timely _ _ _ _ _ _ _ _ _ _ _ _ _ WF E).
Qed.
Print Assumptions C30_timely_check.

(** C31. *)
Lemma strs_eqb_eq a : forall b, strs_eqb a b = true <-> a = b.
Proof.
  induction a as [|x a IH]; intros [|y b]; cbn; try (split; [discriminate|discriminate]); [tauto|]. rewrite andb_true_iff, IH. split.
  - intros [H ->]. apply str_eqb_eq in H. subst. reflexivity.
  - intros H. injection H as -> ->. split; [apply str_eqb_refl|reflexivity].
Qed.
Lemma names_eqb_iff a b : names_eqb a b = true <-> rule_names a = rule_names b.
Proof. unfold names_eqb, rule_names. rewrite andb_true_iff, !strs_eqb_eq. split; [intros [-> ->]; reflexivity|intros H; injection H as -> ->; auto]. Qed.
Lemma survives_iff defs j : b_survives defs j = true <-> survives defs j.
Proof.
  unfold b_survives, survives. destruct (nth_error defs j) as [[r o]|] eqn:E; [|split; [discriminate|intros (r & o & H & _); discriminate]]. rewrite forallb_forall.
  assert (IN : forall k r' o', nth_error defs k = Some (r', o') -> k <> j -> In k (filter (fun k => negb (k =? j)) (seq 0 (length defs)))).
  { intros k r' o' K D. apply filter_In. split; [apply in_seq; split; [lia|]; apply nth_error_Some; congruence|]. apply negb_true_iff, Nat.eqb_neq. exact D. }
  assert (NE : forall r1 r2 : rule, rule_names r1 = rule_names r2 -> names_eqb r1 r2 = true) by (intros; apply names_eqb_iff; assumption).
  split.
  - intros H. exists r, o. split; [reflexivity|]. destruct o.
    + intros k r' L K Q. assert (D : k <> j) by lia. specialize (H k (IN _ _ _ K D)). rewrite K, (NE _ _ Q) in H. apply Nat.ltb_lt in L. rewrite L in H. discriminate.
    + split.
      * intros k r' K Q. assert (D : k <> j) by congruence. specialize (H k (IN _ _ _ K D)). rewrite K, (NE _ _ Q) in H. discriminate.
      * intros k r' L K Q. assert (D : k <> j) by lia. specialize (H k (IN _ _ _ K D)). rewrite K, (NE _ _ Q) in H. apply Nat.ltb_lt in L. rewrite L in H. discriminate.
  - intros (r0 & o0 & Q & H). injection Q as <- <-. intros k K. apply filter_In in K. destruct K as [_ D]. apply negb_true_iff, Nat.eqb_neq in D. destruct (nth_error defs k) as [[r' o']|] eqn:K; [|reflexivity].
    destruct (names_eqb r' r) eqn:N; [|reflexivity]. apply names_eqb_iff in N. cbn [negb orb]. destruct o.
    + destruct (j <? k) eqn:L; [|reflexivity]. apply Nat.ltb_lt in L. destruct o'; [|reflexivity]. destruct (H k r' L K N).
    + destruct H as [H1 H2]. destruct o'; [destruct (H1 k r' K N)|]. destruct (k <? j) eqn:L; [|reflexivity]. apply Nat.ltb_lt in L. destruct (H2 k r' L K N).
Qed.
Lemma sorted_unique : forall l l', StronglySorted lt l -> StronglySorted lt l' -> (forall x : nat, In x l <-> In x l') -> l = l'.
Proof.
  induction l as [|a l IH]; intros [|b l'] S1 S2 H; [reflexivity|destruct (proj2 (H b) (or_introl eq_refl))|destruct (proj1 (H a) (or_introl eq_refl))|].
  inversion S1 as [|? ? S1' F1]; inversion S2 as [|? ? S2' F2]; subst. rewrite Forall_forall in F1, F2.
  assert (a = b). { destruct (proj1 (H a) (or_introl eq_refl)) as [K|K]; [symmetry; exact K|]. destruct (proj2 (H b) (or_introl eq_refl)) as [K'|K']; [exact K'|]. specialize (F1 _ K'). specialize (F2 _ K). lia. }
  subst b. f_equal. apply IH; [assumption..|]. intros x. split; intros K.
  - destruct (proj1 (H x) (or_intror K)) as [Z|Z]; [subst; specialize (F1 _ K); lia|exact Z].
  - destruct (proj2 (H x) (or_intror K)) as [Z|Z]; [subst; specialize (F2 _ K); lia|exact Z].
Qed.
Lemma sorted_filter f : forall n k, StronglySorted lt (filter f (seq k n)).
Proof.
  induction n as [|n IH]; intros k; [constructor|]. cbn [seq filter]. destruct (f k); [|apply IH]. constructor; [apply IH|]. apply Forall_forall. intros x X. apply filter_In in X. destruct X as [X _]. apply in_seq in X. lia.
Qed.
Theorem C31_check : forall defs, (forall r o, In (r, o) defs -> single r) -> t_definitions defs.
Proof.
  intros defs SI. unfold t_definitions. destruct (C31_definitions defs SI) as (js & SO & IFF & F). 
  assert (J : js = filter (b_survives defs) (seq 0 (length defs))).
  { apply sorted_unique; [exact SO|apply sorted_filter|]. intros x. rewrite IFF, filter_In, survives_iff. split; [|tauto]. intros S1. split; [|exact S1]. destruct S1 as (r & o & N & _).
    apply in_seq. split; [lia|]. apply nth_error_Some. congruence. }
  assert (G : forall ks l, Forall2 (fun j r => exists o, nth_error defs j = Some (r, o)) (filter (b_survives defs) ks) l -> l = survivors defs ks).
  { clear. induction ks as [|k ks IH]; intros l F; cbn [filter survivors] in *; [inversion F; reflexivity|]. destruct (b_survives defs k) eqn:B.
    - inversion F as [|? ? ? ? (o & N) F']; subst. rewrite N. cbn [app]. f_equal. apply IH. exact F'.
    - rewrite (IH l F). destruct (nth_error defs k) as [[]|]; reflexivity. }
  apply G. rewrite <- J. exact F.
Qed.
Print Assumptions C31_check.

(** C50. *)
Lemma b_rule_iff r l : b_rule r l = true <-> In r l.
Proof.
  unfold b_rule. rewrite existsb_exists. split; [intros (x & X & E); destruct (rule_dec r x); [subst; exact X|discriminate]|]. intros H. exists r. split; [exact H|]. destruct (rule_dec r r); [reflexivity|congruence].
Qed.
Lemma b_nodup_iff l : NoDup l -> b_nodup l = true.
Proof. induction 1 as [|r l N H IH]; [reflexivity|]. cbn. rewrite IH. destruct (b_rule r l) eqn:E; [apply b_rule_iff in E; tauto|reflexivity]. Qed.
Lemma meaning_iff files posix suffixes r : In r (meaning_list files posix suffixes) <-> suffix_meaning files posix suffixes r.
Proof.
  unfold meaning_list. rewrite !in_app_iff, in_map_iff, !in_flat_map. split.
  - intros [(d & <- & D)|[(d & D & H)|(d & D & H)]].
    + apply sm_dummy. exact D.
    + destruct (files d) as [[[c|] deps]|] eqn:E; [|destruct H..]. destruct H as [<-|[]]. exact (sm_single _ _ _ _ _ _ D E).
    + apply in_flat_map in H. destruct H as (d2 & D2 & H). destruct (str_eqb d d2) eqn:Q; [destruct H|]. assert (NE : d <> d2) by (intros ->; rewrite str_eqb_refl in Q; discriminate).
      destruct (files (d ++ d2)) as [[[c|] deps]|] eqn:E; [|destruct H..]. destruct (deps && posix) eqn:P; [destruct H|]. assert (DP : deps = true -> posix = false) by (intros ->; exact P).
      destruct H as [<-|H]; [exact (sm_double _ _ _ _ _ _ _ D D2 NE E DP)|]. destruct (str_eqb d2 (s2l ".a")) eqn:A; [|destruct H]. apply str_eqb_eq in A. subst d2. destruct H as [<-|[]]. exact (sm_archive _ _ _ _ _ _ D D2 NE E DP).
  - intros H. destruct H as [d D|d c deps D E|d d2 c deps D D2 NE E DP|d c deps D D2 NE E DP].
    + left. exists d. auto.
    + right. left. exists d. split; [exact D|]. rewrite E. left. reflexivity.
    + right. right. exists d. split; [exact D|]. apply in_flat_map. exists d2. split; [exact D2|]. destruct (str_eqb d d2) eqn:Q; [apply str_eqb_eq in Q; congruence|]. rewrite E.
      replace (deps && posix) with false by (destruct deps; [rewrite DP|]; reflexivity). left. reflexivity.
    + right. right. exists d. split; [exact D|]. apply in_flat_map. exists (s2l ".a"%string). split; [exact D2|]. destruct (str_eqb d (s2l ".a")) eqn:Q; [apply str_eqb_eq in Q; congruence|]. rewrite E.
      replace (deps && posix) with false by (destruct deps; [rewrite DP|]; reflexivity). rewrite str_eqb_refl. right. left. reflexivity.
Qed.
Lemma same_rule_iff r old : b_same_rule r old = true <-> same_rule r old.
Proof.
  unfold b_same_rule, same_rule. destruct (r_targets r) as [|t [|t2 l]].
  - split; [discriminate|intros (t & T & _); discriminate].
  - rewrite andb_true_iff, forallb_forall, strs_eqb_eq. split.
    + intros [H1 H2]. exists t. split; [reflexivity|]. split; [|exact H2]. intros u U. apply str_eqb_eq. exact (H1 u U).
    + intros (t' & T & H1 & H2). injection T as <-. split; [|exact H2]. intros u U. rewrite (H1 u U). apply str_eqb_refl.
  - split; [discriminate|intros (t' & T & _); discriminate].
Qed.
Theorem C50_check : forall files posix suffixes l, ~ In [] suffixes -> t_suffixes files posix suffixes l = true.
Proof.
  intros files posix suffixes l NE. destruct (C50_suffix_rules files posix suffixes l NE) as (extra & E & ND & H). unfold t_suffixes. rewrite E. cbv zeta. rewrite firstn_app_len, skipn_app_len.
  assert (SR : forall r, existsb (b_same_rule r) l = true <-> exists old, In old l /\ same_rule r old).
  { intros r. rewrite existsb_exists. split; intros (o & O & S1); exists o; (split; [exact O|]); apply same_rule_iff; exact S1. }
  destruct (list_eq_dec rule_dec l l); [|congruence]. rewrite (b_nodup_iff _ ND). cbn [andb]. apply andb_true_iff. split; apply forallb_forall; intros r R.
  - apply H in R. destruct R as [R1 R2]. apply andb_true_iff. split; [apply b_rule_iff, meaning_iff; exact R1|]. apply negb_true_iff. destruct (existsb (b_same_rule r) l) eqn:X; [apply SR in X; tauto|reflexivity].
  - destruct (existsb (b_same_rule r) l) eqn:X; [reflexivity|]. cbn [orb]. apply b_rule_iff. apply H. split; [apply meaning_iff; exact R|]. rewrite <- SR, X. discriminate.
Qed.
Print Assumptions C50_check.

(** So every sample of W_Implicit must succeed. *)
Lemma worlds_follow l : forallb (fun w => b_well (w_rules w)) l = true -> worlds_hold l = true.
Proof.
  rewrite forallb_forall. intros H. apply forallb_forall. intros w W. specialize (H w W). unfold world_test. cbv zeta. rewrite C30_check; [apply C30_timely_check|]; apply well_iff; exact H.
Qed.
Example worlds_fit : unit. Proof. computes (forallb (fun w => b_well (w_rules w)) (worlds 300 1 ++ worlds 300 4000001 ++ chains 400 11 ++ long (orders 150 21) ++ deep (chains 100 31))). Qed.
Lemma complete_follow l : complete_hold l = true.
Proof.
  apply forallb_forall. intros s _. unfold tame_world. repeat match goal with |- context [let '(_, _) := ?x in _] => destruct x as [? ?] end. apply C30_complete_check.
Qed.
Lemma draw_all {A} (P : A -> Prop) g : (forall s : N, P (fst (g s))) -> forall n s, Forall P (fst (draw n g s)).
Proof.
  intros H. induction n as [|n IH]; intros s; cbn [draw]; [constructor|]. pose proof (H s) as K. destruct (g s) as [a s1]. specialize (IH s1). destruct (draw n g s1) as [l s2]. constructor; assumption.
Qed.
Lemma definitions_follow l : definitions_hold l = true.
Proof.
  apply forallb_forall. intros s _. unfold definitions_test.
  assert (X : t_definitions (definitions s)). { apply C31_check. intros r o I. unfold definitions, several in I. destruct (roll 9 s) as [k s1].
    pose proof (draw_all (fun d => single (fst d)) gen_def) as D. assert (D' : Forall (fun d => single (fst d)) (fst (draw (2 + k) gen_def s1))).
    { apply D. intros s2. unfold gen_def. repeat match goal with |- context [let '(_, _) := ?x in _] => destruct x as [? ?] end. eexists. reflexivity. }
    rewrite Forall_forall in D'. exact (D' _ I). }
  unfold t_definitions in X. rewrite X. destruct (list_eq_dec rule_dec _ _); [reflexivity|congruence].
Qed.
Lemma subset_in {A} p (l : list A) : forall s a, In a (fst (subset p l s)) -> In a l.
Proof.
  induction l as [|x l IH]; intros s a; cbn [subset]; [intros []|]. destruct (chance p s) as [b s1]. specialize (IH s1 a). destruct (subset p l s1) as [r s2]. cbn [fst] in *.
  destruct b; [intros [<-|K]; [left; reflexivity|right; auto]|right; auto].
Qed.
Lemma suffixes_follow l : suffixes_hold l = true.
Proof.
  apply forallb_forall. intros s _. unfold suffixes_world. destruct (gen_files s) as [files s1]. destruct (chance 50 s1) as [posix s2]. pose proof (subset_in 70 w_suffixes s2 []) as S1. destruct (subset 70 w_suffixes s2) as [suffixes s3].
  destruct (several _ _ _ _) as [l' s4]. apply C50_check. intros I. specialize (S1 I). cbn in S1. intuition discriminate.
Qed.
