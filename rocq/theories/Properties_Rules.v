(** C59: the rules of a makefile. *)
From Verif Require Import Base M_Text S_Text M_Quote S_Quote M_Seq S_Seq M_Rules S_Rules P_Text3 P_Rules.
Open Scope string_scope.
Open Scope list_scope.
Open Scope nat_scope.

Definition start : state := mkstate [] [] [].
(** A rule that could stand alone in a makefile: names that [parse_file_seq] can give (C58), not a mixture of
    files and patterns, no static pattern for pattern targets, a recipe if its targets are grouped. *)
Definition alone (r : rule) : Prop :=
  proper r /\ Forall (fun n => tname n <> []) (r_targets r) /\ (r_grouped r = true -> r_cmds r <> None) /\ (explicit r = false -> r_pattern r = None).
Lemma alone_good l : Forall alone l -> Forall good_rule l.
Proof. apply Forall_impl. intros r (A & B & C & D). split; [exact A|split; [split; assumption|exact B]]. Qed.

Definition kind (two : bool) (l : list rule) : Prop := Forall (fun r => r_two r = two) l.
(** How the names of static pattern targets may be: the stem is found word by word. *)
Definition stemmed (t : str) (l : list rule) : Prop := t <> [] /\ (no_space t \/ Forall (fun r => r_pattern r = None) l).
Lemma gives_all t l : stemmed t l -> Forall2 (gives t) l (map (fun r => this_deps r t) l).
Proof.
  intros (NE & H). induction l as [|r l IH]; [constructor|]. cbn [map]. constructor.
  - apply this_deps_gives; [exact NE|]. destruct H as [H|H]; [right; exact H|left; inversion H; assumption].
  - apply IH. destruct H as [H|H]; [left; exact H|right; inversion H; assumption].
Qed.
Lemma all_deps_step r ds init l : all_deps init ((r, ds) :: l) = all_deps (match r_cmds r with Some _ => ds ++ init | None => init ++ ds end) l.
Proof.
  unfold all_deps. cbn [filter]. assert (W : with_recipe (r, ds) = match r_cmds r with Some _ => true | None => false end) by reflexivity. rewrite W. clear W.
  destruct (r_cmds r); cbn [negb map snd rev concat].
  - rewrite concat_app. cbn [concat]. rewrite app_nil_r, <- !app_assoc. reflexivity.
  - rewrite <- !app_assoc. reflexivity.
Qed.
Lemma add_deps_app c ds old : add_deps c ds old = match c with Some _ => ds ++ old | None => old ++ ds end.
Proof. unfold add_deps. destruct ds as [|d ds]; [destruct c; [reflexivity|rewrite app_nil_r; reflexivity]|]. destruct old as [|o old]; [destruct c; [rewrite app_nil_r|]; reflexivity|reflexivity]. Qed.
Lemma last_recipe_step init r l c : last_recipe (match r_cmds r with Some x => Some x | None => init end) l c -> last_recipe init (r :: l) c.
Proof.
  intros H. inversion H as [l' F|l1 r' c' l2 E F]; subst.
  - destruct (r_cmds r) as [x|] eqn:E; [exact (lr_some init [] r x l E F)|apply lr_none; constructor; assumption].
  - exact (lr_some init (r :: l1) r' c' l2 E F).
Qed.
Definition keeps_deps (t : str) (r : rule) : Prop := str_eqb t n_suffixes && nil_b (raw_deps r t) = false.
Definition keeps_recipe (t : str) (r : rule) : Prop := r_cmds r = None -> str_eqb t n_default && nil_b (raw_deps r t) = false.
Lemma run_kept t l : forall e, kind false l -> Forall (keeps_deps t) l -> Forall (keeps_recipe t) l ->
  exists e', run t l (Single e) = Some (Single e') /\ e_deps e' = all_deps (e_deps e) (combine l (map (fun r => this_deps r t) l)) /\
    last_recipe (e_cmds e) l (e_cmds e') /\ e_target e' = (e_target e || negb (nil_b l)).
Proof.
  intros e B. revert e. induction B as [|r l H B IH]; intros e D C; cbn [run map combine].
  - exists e. split; [reflexivity|]. split; [unfold all_deps; cbn; rewrite app_nil_r; reflexivity|]. split; [apply lr_none; constructor|]. rewrite orb_false_r. reflexivity.
  - inversion D as [|? ? D1 D2]; subst. inversion C as [|? ? C1 C2]; subst. unfold upd. rewrite H, D1. cbn [negb].
    match goal with |- context [run t l (Single ?x)] => destruct (IH x D2 C2) as (e' & R & E & L & T) end. exists e'. split; [exact R|].
    cbn [e_deps e_cmds e_target] in *. rewrite all_deps_step, <- add_deps_app. split; [exact E|]. split.
    + apply last_recipe_step. destruct (r_cmds r) eqn:Q; [exact L|]. rewrite (C1 Q) in L. exact L.
    + rewrite T, orb_true_r. reflexivity.
Qed.
Lemma run_single t l : forall e, kind false l -> t <> n_default -> t <> n_suffixes ->
  exists e', run t l (Single e) = Some (Single e') /\ e_deps e' = all_deps (e_deps e) (combine l (map (fun r => this_deps r t) l)) /\
    last_recipe (e_cmds e) l (e_cmds e') /\ e_target e' = (e_target e || negb (nil_b l)).
Proof.
  intros e B D S0. apply str_eqb_neq in D. apply str_eqb_neq in S0.
  apply run_kept; [exact B| |]; apply Forall_forall; intros r _; unfold keeps_deps, keeps_recipe; [rewrite S0|rewrite D]; reflexivity.
Qed.
Lemma run_any t l : forall e, kind false l -> exists e', run t l (Single e) = Some (Single e').
Proof. intros e B. revert e. induction B as [|r l H B IH]; intros e; cbn [run]; [eexists; reflexivity|]. unfold upd. rewrite H. cbn [negb]. apply IH. Qed.

(** Single-colon rules: all prerequisites, those of the rule with the recipe first; the last recipe. *)
Theorem C59_single :
  forall l s t, Forall alone l -> record_all l start = Some s -> mentions t l <> [] -> kind false (mentions t l) ->
  t <> n_default -> t <> n_suffixes -> stemmed t (mentions t l) ->
  exists e ds, find t (s_db s) = Some (Single e) /\ e_target e = true /\
    Forall2 (gives t) (mentions t l) ds /\ e_deps e = all_deps [] (combine (mentions t l) ds) /\
    last_recipe None (mentions t l) (e_cmds e).
Proof.
  intros l s t A R M B D S0 ST. pose proof (record_all_ok l start (alone_good l A)) as H. rewrite R in H. destruct H as [H _]. destruct (H t) as [H1 _].
  destruct (run_single t (mentions t l) blank_entry B D S0) as (e & R' & E & L & T). change (view t (s_db start)) with (Single blank_entry) in H1. rewrite R' in H1. injection H1 as H1.
  exists e, (map (fun r => this_deps r t) (mentions t l)). assert (TT : e_target e = true) by (rewrite T; destruct (mentions t l); [congruence|reflexivity]).
  split; [|split; [exact TT|split; [apply gives_all; exact ST|split; [exact E|exact L]]]].
  unfold view in H1. destruct (find t (s_db s)) as [x|]; [subst; reflexivity|]. injection H1 as ->. discriminate.
Qed.
Print Assumptions C59_single.

(** In words: the first prerequisite is the first of the rule with the recipe (if it has any), and nothing is lost. *)
Theorem C59_first_and_all :
  (forall l1 r c ds l2, r_cmds r = Some c -> Forall (fun x => r_cmds (fst x) = None) l2 -> exists rest, all_deps [] (l1 ++ (r, ds) :: l2) = ds ++ rest) /\
  (forall l x, In x (all_deps [] l) <-> exists r ds, In (r, ds) l /\ In x ds).
Proof.
  split.
  - intros l1 r c ds l2 E F. unfold all_deps. rewrite !filter_app. cbn [filter]. unfold with_recipe at 2. cbn [fst]. rewrite E.
    assert (Z : filter with_recipe l2 = []) by (induction F as [|y l2 H F IH]; [reflexivity|]; cbn [filter]; unfold with_recipe at 1; rewrite H; exact IH).
    rewrite Z, map_app, rev_app_distr. cbn [map rev app concat snd]. rewrite <- !app_assoc. eexists. reflexivity.
  - intros l x. unfold all_deps. cbn [app]. rewrite in_app_iff. split.
    + intros [I|I]; apply in_concat in I; destruct I as (y & I & J).
      * apply in_rev in I. apply in_map_iff in I. destruct I as ([r ds] & <- & I). apply filter_In in I. exists r, ds. split; [exact (proj1 I)|exact J].
      * apply in_map_iff in I. destruct I as ([r ds] & <- & I). apply filter_In in I. exists r, ds. split; [exact (proj1 I)|exact J].
    + intros (r & ds & I & J). destruct (with_recipe (r, ds)) eqn:W; [left|right]; apply in_concat; exists ds; (split; [|exact J]).
      * apply -> in_rev. apply in_map_iff. exists (r, ds). split; [reflexivity|]. apply filter_In. split; assumption.
      * apply in_map_iff. exists (r, ds). split; [reflexivity|]. apply filter_In. split; [assumption|rewrite W; reflexivity].
Qed.
Print Assumptions C59_first_and_all.

(** Double-colon rules: one entry for each mention, in order, with its own prerequisites and recipe. *)
Definition made (t : str) (r : rule) (e : entry) : Prop := gives t r (e_deps e) /\ e_cmds e = r_cmds r /\ e_target e = true.
Lemma run_double t l : forall es0 es, kind true l -> stemmed t l -> Forall2 (made t) es0 es -> exists es', run t l (Double es) = Some (Double (es ++ es')) /\ Forall2 (made t) l es'.
Proof.
  intros es0 es B. revert es0 es. induction B as [|r l H B IH]; intros es0 es ST F; cbn [run]; [exists []; rewrite app_nil_r; split; [reflexivity|constructor]|].
  unfold upd. rewrite H. cbn [negb]. set (e := mkentry _ _ _ _ _). assert (ME : made t r e).
  { unfold made, e. cbn [e_deps e_cmds e_target]. rewrite add_deps_app. cbn [blank_entry e_deps]. rewrite app_nil_r. cbn [app]. split; [|split; reflexivity].
    destruct ST as (NE & ST). destruct (r_cmds r); (apply this_deps_gives; [exact NE|]; destruct ST as [ST|ST]; [right; exact ST|left; inversion ST; assumption]). }
  destruct (IH (es0 ++ [r]) (es ++ [e])) as (es' & R & F').
  { destruct ST as (NE & ST). split; [exact NE|]. destruct ST as [ST|ST]; [left; exact ST|right; inversion ST; assumption]. }
  { apply Forall2_app; [exact F|constructor; [exact ME|constructor]]. }
  exists (e :: es'). rewrite R, <- app_assoc. split; [reflexivity|]. constructor; [exact ME|exact F'].
Qed.
Theorem C59_double :
  forall l s t, Forall alone l -> record_all l start = Some s -> mentions t l <> [] -> kind true (mentions t l) -> stemmed t (mentions t l) ->
  exists es, find t (s_db s) = Some (Double es) /\ Forall2 (made t) (mentions t l) es.
Proof.
  intros l s t A R M B ST. pose proof (record_all_ok l start (alone_good l A)) as H. rewrite R in H. destruct H as [H _]. destruct (H t) as [H1 _].
  change (view t (s_db start)) with (Single blank_entry) in H1. destruct (mentions t l) as [|r m] eqn:ME; [congruence|]. cbn [run] in H1. inversion B as [|? ? B1 B2]; subst.
  unfold upd in H1. rewrite B1 in H1. cbn [negb blank_entry e_target] in H1.
  match type of H1 with run t m (Double [?x]) = _ => set (e := x) in H1 end.
  assert (MA : made t r e).
  { unfold made, e. cbn [e_deps e_cmds e_target]. rewrite add_deps_app. cbn [e_deps]. rewrite app_nil_r. cbn [app]. split; [|split; reflexivity].
    destruct ST as (NE & ST). destruct (r_cmds r); (apply this_deps_gives; [exact NE|]; destruct ST as [ST|ST]; [right; exact ST|left; inversion ST; assumption]). }
  destruct (run_double t m [r] [e] B2) as (es & R' & F).
  { destruct ST as (NE & ST). split; [exact NE|]. destruct ST as [ST|ST]; [left; exact ST|right; inversion ST; assumption]. }
  { constructor; [exact MA|constructor]. }
  rewrite R' in H1. injection H1 as H1. cbn [app] in H1. exists (e :: es). split; [|constructor; assumption].
  unfold view in H1. destruct (find t (s_db s)) as [x|]; [subst; reflexivity|discriminate].
Qed.
Print Assumptions C59_double.

(** make stops exactly if some name is a target of both kinds. *)
Lemma run_none t l : forall sl, (sl = Single blank_entry \/ (exists e, sl = Single e /\ e_target e = true) \/ exists es, sl = Double es) ->
  (run t l sl = None <-> (match sl with Single e => if e_target e then False else False | Double _ => True end /\ (exists r, In r l /\ r_two r = false)) \/
     (match sl with Single e => e_target e = true | Double _ => False end /\ (exists r, In r l /\ r_two r = true)) \/
     (exists r r', In r l /\ In r' l /\ r_two r = false /\ r_two r' = true)).
Proof.
  induction l as [|r l IH]; intros sl K; cbn [run].
  - split; [discriminate|]. intros [(_ & r & [] & _)|[(_ & r & [] & _)|(r & _ & [] & _)]].
  - unfold upd. destruct (r_two r) eqn:E; cbn [negb].
    + destruct sl as [e|es].
      * destruct (e_target e) eqn:T.
        -- split; [|reflexivity]. intros _. right. left. split; [reflexivity|]. exists r. split; [left; reflexivity|exact E].
        -- match goal with |- context [run t l ?x] => specialize (IH x) end. rewrite IH by (right; right; eexists; reflexivity). cbn beta iota. split.
           ++ intros [(_ & x & I & J)|[([] & _)|(x & y & I & J & X & Y)]].
              ** right. right. exists x, r. repeat split; [right; exact I|left; reflexivity|exact J|exact E].
              ** right. right. exists x, y. repeat split; [right; exact I|right; exact J|exact X|exact Y].
           ++ intros [([] & _)|[(X & _)|(x & y & I & J & X & Y)]]; [discriminate|].
              destruct I as [<- |I]; [congruence|]. left. split; [trivial|]. exists x. split; assumption.
      * match goal with |- context [run t l ?x] => specialize (IH x) end. rewrite IH by (right; right; eexists; reflexivity). cbn beta iota. split.
        -- intros [(_ & x & I & J)|[([] & _)|(x & y & I & J & X & Y)]].
           ++ left. split; [trivial|]. exists x. split; [right; exact I|exact J].
           ++ right. right. exists x, y. repeat split; [right; exact I|right; exact J|exact X|exact Y].
        -- intros [(_ & x & I & J)|[([] & _)|(x & y & I & J & X & Y)]].
           ++ left. split; [trivial|]. exists x. destruct I as [<- |I]; [congruence|]. split; assumption.
           ++ left. split; [trivial|]. exists x. destruct I as [<- |I]; [congruence|]. split; assumption.
    + destruct sl as [e|es].
      * match goal with |- context [run t l ?x] => specialize (IH x) end. rewrite IH by (right; left; eexists; split; reflexivity). cbn beta iota. cbn [e_target]. split.
        -- intros [([] & _)|[(_ & x & I & J)|(x & y & I & J & X & Y)]].
           ++ right. right. exists r, x. repeat split; [left; reflexivity|right; exact I|exact E|exact J].
           ++ right. right. exists x, y. repeat split; [right; exact I|right; exact J|exact X|exact Y].
        -- intros [(X & _)|[(_ & x & I & J)|(x & y & I & J & X & Y)]].
           ++ destruct (e_target e); destruct X.
           ++ right. left. split; [reflexivity|]. exists x. destruct I as [<- |I]; [congruence|]. split; assumption.
           ++ right. left. split; [reflexivity|]. exists y. destruct J as [<- |J]; [congruence|]. split; assumption.
      * split; [|reflexivity]. intros _. left. split; [trivial|]. exists r. split; [left; reflexivity|exact E].
Qed.
Theorem C59_stops :
  forall l, Forall alone l ->
  (record_all l start = None <-> exists t r r', In r (mentions t l) /\ In r' (mentions t l) /\ r_two r = false /\ r_two r' = true).
Proof.
  intros l A. pose proof (record_all_ok l start (alone_good l A)) as H.
  assert (N : forall t, run t (mentions t l) (view t (s_db start)) = None <-> exists r r', In r (mentions t l) /\ In r' (mentions t l) /\ r_two r = false /\ r_two r' = true).
  { intros t. change (view t (s_db start)) with (Single blank_entry). rewrite (run_none t (mentions t l) (Single blank_entry) (or_introl eq_refl)). cbn [blank_entry e_target]. split.
    - intros [([] & _)|[(X & _)|X]]; [discriminate|exact X].
    - intros X. right. right. exact X. }
  destruct (record_all l start) as [s|].
  - destruct H as [H _]. split; [discriminate|]. intros (t & X). apply N in X. destruct (H t) as [H1 _]. congruence.
  - split; [|reflexivity]. intros _. destruct H as [t H]. exists t. apply N. exact H.
Qed.
Print Assumptions C59_stops.

(** A recipe is replaced only with a warning. *)
Definition two_recipes (l : list rule) : Prop :=
  exists a r x b r' y c, l = a ++ r :: b ++ r' :: c /\ r_cmds r = Some x /\ r_cmds r' = Some y /\ c_id x <> c_id y.
Lemma warns_override t l : t <> n_default -> kind false l -> forall e, (e_cmds e <> None -> e_target e = true) ->
  (In (W_override t) (warns t l (Single e)) <->
   (exists y r x, e_cmds e = Some y /\ In r l /\ r_cmds r = Some x /\ c_id x <> c_id y) \/ two_recipes l).
Proof.
  intros D B. apply str_eqb_neq in D. induction B as [|r l H B IH]; intros e T.
  - cbn [warns]. split; [intros []|]. intros [(y & r & x & _ & [] & _)|(a & r & x & b & r' & y & c & E & _)]. destruct a; discriminate.
  - cbn [warns]. unfold upd. rewrite H, D. cbn [negb andb]. rewrite in_app_iff.
    match goal with |- context [warns t l (Single ?x)] => set (e' := x) end.
    assert (W : In (W_override t) (warn r t (Single e)) <-> exists y x, e_cmds e = Some y /\ r_cmds r = Some x /\ c_id x <> c_id y).
    { unfold warn. rewrite H. cbn [negb]. rewrite in_app_iff. split.
      - intros [I|I].
        + destruct (r_pattern r) as [[p q]|]; [|destruct I]. destruct (pattern_matches_at p q t); [destruct I|]. destruct I as [I|[]]. discriminate.
        + unfold same_cmds in I. destruct (r_cmds r) as [x|]; destruct (e_cmds e) as [y|]; cbn [none_b negb andb] in I; try (destruct I; fail).
          destruct (c_id x =? c_id y) eqn:Q; [destruct I as [I|[]]; discriminate|]. exists y, x. repeat split. apply Nat.eqb_neq. exact Q.
      - intros (y & x & E1 & E2 & N). right. unfold same_cmds. rewrite E1, E2. apply Nat.eqb_neq in N. rewrite N. cbn [none_b negb andb]. rewrite T by (rewrite E1; discriminate). left. reflexivity. }
    rewrite W, (IH e') by (intros _; reflexivity). clear W.
    assert (C : e_cmds e' = match r_cmds r with Some c => Some c | None => e_cmds e end) by reflexivity. clearbody e'. rewrite C. clear C IH. split.
    + intros [(y & x & E1 & E2 & N)|[(y & r' & x & E1 & I & E2 & N)|(a & r1 & x & b & r2 & y & c & -> & E1 & E2 & N)]].
      * left. exists y, r, x. repeat split; [exact E1|left; reflexivity|exact E2|exact N].
      * destruct (r_cmds r) as [z|] eqn:Z.
        -- injection E1 as ->. right. apply in_split in I. destruct I as (b & c & ->). exists [], r, y, b, r', x, c. repeat split; [exact Z|exact E2|]. intros Q. apply N. symmetry. exact Q.
        -- left. exists y, r', x. repeat split; [exact E1|right; exact I|exact E2|exact N].
      * right. exists (r :: a), r1, x, b, r2, y, c. repeat split; assumption.
    + intros [(y & r' & x & E1 & I & E2 & N)|(a & r1 & x & b & r2 & y & c & E & E1 & E2 & N)].
      * destruct I as [<- |I]; [left; exists y, x; repeat split; assumption|]. destruct (r_cmds r) as [z|] eqn:Z.
        -- destruct (Nat.eq_dec (c_id z) (c_id y)) as [Q|Q]; [|left; exists y, z; repeat split; assumption].
           right. left. exists z, r', x. repeat split; [exact I|exact E2|congruence].
        -- right. left. exists y, r', x. repeat split; assumption.
      * destruct a as [|a0 a]; cbn [app] in E; injection E as -> ->.
        -- right. left. rewrite E1. exists x, r2, y. repeat split; [apply in_or_app; right; left; reflexivity|exact E2|]. intros Q. apply N. symmetry. exact Q.
        -- right. right. exists a, r1, x, b, r2, y, c. repeat split; assumption.
Qed.
Theorem C59_warned :
  forall l s t, Forall alone l -> record_all l start = Some s -> kind false (mentions t l) -> t <> n_default ->
  (In (W_override t) (s_warn s) <-> two_recipes (mentions t l)).
Proof.
  intros l s t A R B D. pose proof (record_all_ok l start (alone_good l A)) as H. rewrite R in H. destruct H as [H _]. destruct (H t) as [_ H2].
  change (view t (s_db start)) with (Single blank_entry) in H2. cbn [start s_warn filter app] in H2.
  assert (I : In (W_override t) (s_warn s) <-> In (W_override t) (filter (about t) (s_warn s))).
  { rewrite filter_In. cbn [about]. rewrite str_eqb_refl. intuition. }
  rewrite I, H2, (warns_override t (mentions t l) D B blank_entry) by (intros X; elim X; reflexivity). split; [|intros X; right; exact X].
  intros [(y & r & x & E & _)|X]; [discriminate|exact X].
Qed.
Print Assumptions C59_warned.

(** .SUFFIXES without prerequisites clears the list; .DEFAULT without prerequisites and recipe clears the recipe. *)
Definition barren (t : str) (r : rule) : Prop := r_deps r = [] \/ exists pre post, r_pattern r = Some (pre, post) /\ ~ exists stem, stem_in pre post t stem.
Lemma barren_nil t r : nil_b (raw_deps r t) = true <-> barren t r.
Proof.
  unfold raw_deps, barren. destruct (r_pattern r) as [[pre post]|] eqn:Q.
  - destruct (pattern_matches_at pre post t) eqn:M.
    + split; [intros H; left; destruct (r_deps r); [reflexivity|discriminate]|]. intros [-> |(a & b & E & N)]; [reflexivity|]. injection E as <- <-. elim N. apply pattern_matches_at_iff. exact M.
    + split; [|reflexivity]. intros _. right. exists pre, post. split; [reflexivity|]. intros E. apply pattern_matches_at_iff in E. congruence.
  - split; [intros H; left; destruct (r_deps r); [reflexivity|discriminate]|]. intros [-> |(a & b & E & _)]; [reflexivity|discriminate].
Qed.
Lemma found t l s e : Forall alone l -> record_all l start = Some s -> run t (mentions t l) (Single blank_entry) = Some (Single e) -> e_target e = true -> find t (s_db s) = Some (Single e).
Proof.
  intros A R R' T. pose proof (record_all_ok l start (alone_good l A)) as H. rewrite R in H. destruct H as [H _]. destruct (H t) as [H1 _].
  change (view t (s_db start)) with (Single blank_entry) in H1. rewrite R' in H1. injection H1 as H1. unfold view in H1. destruct (find t (s_db s)) as [x|]; [subst; reflexivity|]. injection H1 as ->. discriminate.
Qed.
Lemma barren_deps t r : barren t r -> this_deps r t = [].
Proof.
  intros B. apply barren_nil in B. unfold raw_deps in B. unfold this_deps. destruct (r_pattern r) as [[pre post]|]; [destruct (pattern_matches_at pre post t); [|reflexivity]|]; destruct (r_deps r); try discriminate; reflexivity.
Qed.
Lemma stemmed_special l : stemmed n_suffixes l.
Proof. split; [discriminate|]. left. intros c I. cbn in I. repeat (destruct I as [<- |I]; [reflexivity|]). destruct I. Qed.
Theorem C59_suffixes :
  forall l s a r b, Forall alone l -> record_all l start = Some s -> mentions n_suffixes l = a ++ r :: b -> kind false (mentions n_suffixes l) ->
  barren n_suffixes r -> Forall (fun r' => ~ barren n_suffixes r') b ->
  exists e ds, find n_suffixes (s_db s) = Some (Single e) /\ Forall2 (gives n_suffixes) b ds /\ e_deps e = all_deps [] (combine b ds).
Proof.
  intros l s a r b A R M B E N. pose proof B as B'. rewrite M in B'. apply Forall_app in B'. destruct B' as [B1 B2]. inversion B2 as [|? ? B3 B4]; subst.
  destruct (run_any n_suffixes a blank_entry B1) as (e1 & R1).
  assert (R2 : exists e2, upd r (grp r) n_suffixes (Single e1) = Some (Single e2) /\ e_deps e2 = [] /\ e_target e2 = true).
  { unfold upd. rewrite B3, (barren_deps _ _ E). apply barren_nil in E. rewrite E. cbn [negb]. rewrite str_eqb_refl. cbn [andb]. eexists. split; [reflexivity|]. split; [destruct (r_cmds r); reflexivity|reflexivity]. }
  destruct R2 as (e2 & R2 & D2 & T2).
  destruct (run_kept n_suffixes b e2 B4) as (e & R3 & D3 & _ & T3).
  { clear -N. eapply Forall_impl; [|exact N]. intros x H. unfold keeps_deps. destruct (nil_b (raw_deps x n_suffixes)) eqn:Q; [|apply andb_false_r]. apply barren_nil in Q. elim (H Q). }
  { apply Forall_forall. intros x _ _. reflexivity. }
  exists e. eexists. split; [|split; [apply gives_all, stemmed_special|rewrite D3, D2; reflexivity]]. apply (found n_suffixes l s e A R); [|rewrite T3, T2; reflexivity].
  rewrite M, run_app, R1. cbn [run]. rewrite R2. exact R3.
Qed.
Print Assumptions C59_suffixes.
Theorem C59_default :
  forall l s a r b, Forall alone l -> record_all l start = Some s -> mentions n_default l = a ++ r :: b -> kind false (mentions n_default l) ->
  barren n_default r -> r_cmds r = None -> Forall (fun r' => barren n_default r' -> r_cmds r' <> None) b ->
  exists e, find n_default (s_db s) = Some (Single e) /\ last_recipe None b (e_cmds e).
Proof.
  intros l s a r b A R M B E C N. pose proof B as B'. rewrite M in B'. apply Forall_app in B'. destruct B' as [B1 B2]. inversion B2 as [|? ? B3 B4]; subst.
  destruct (run_any n_default a blank_entry B1) as (e1 & R1).
  assert (R2 : exists e2, upd r (grp r) n_default (Single e1) = Some (Single e2) /\ e_cmds e2 = None /\ e_target e2 = true).
  { unfold upd. apply barren_nil in E. rewrite B3, E, C. cbn [negb]. rewrite str_eqb_refl. cbn [andb]. eexists. split; [reflexivity|]. split; reflexivity. }
  destruct R2 as (e2 & R2 & D2 & T2).
  destruct (run_kept n_default b e2 B4) as (e & R3 & _ & D3 & T3).
  { apply Forall_forall. intros x _. reflexivity. }
  { clear -N. eapply Forall_impl; [|exact N]. intros x H Z. destruct (nil_b (raw_deps x n_default)) eqn:Q; [|apply andb_false_r]. apply barren_nil in Q. elim (H Q Z). }
  rewrite D2 in D3. exists e. split; [|exact D3]. apply (found n_default l s e A R); [|rewrite T3, T2; reflexivity].
  rewrite M, run_app, R1. cbn [run]. rewrite R2. exact R3.
Qed.
Print Assumptions C59_default.
(** Nothing is lost from them otherwise. *)
Theorem C59_special_kept :
  forall l s t, Forall alone l -> record_all l start = Some s -> mentions t l <> [] -> kind false (mentions t l) -> stemmed t (mentions t l) ->
  Forall (fun r => barren t r -> r_cmds r <> None) (mentions t l) -> (t = n_suffixes -> Forall (fun r => ~ barren t r) (mentions t l)) ->
  exists e ds, find t (s_db s) = Some (Single e) /\ Forall2 (gives t) (mentions t l) ds /\ e_deps e = all_deps [] (combine (mentions t l) ds) /\ last_recipe None (mentions t l) (e_cmds e).
Proof.
  intros l s t A R M B ST N1 N2. destruct (run_kept t (mentions t l) blank_entry B) as (e & R3 & D3 & L3 & T3).
  - destruct (str_eqb t n_suffixes) eqn:Q.
    + apply str_eqb_eq in Q. eapply Forall_impl; [|exact (N2 Q)]. intros x H. unfold keeps_deps. destruct (nil_b (raw_deps x t)) eqn:Z; [|apply andb_false_r]. apply barren_nil in Z. elim (H Z).
    + apply Forall_forall. intros x _. unfold keeps_deps. rewrite Q. reflexivity.
  - eapply Forall_impl; [|exact N1]. intros x H Z. destruct (nil_b (raw_deps x t)) eqn:Q; [|apply andb_false_r]. apply barren_nil in Q. elim (H Q Z).
  - exists e. eexists. split; [|split; [apply gives_all; exact ST|split; [exact D3|exact L3]]]. apply (found t l s e A R R3). rewrite T3. destruct (mentions t l); [congruence|reflexivity].
Qed.
Print Assumptions C59_special_kept.

(** The targets of a grouped rule are made together. *)
Definition latest (sl : slot) (e : entry) : Prop := match sl with Single x => e = x | Double es => exists es0, es = es0 ++ [e] end.
Theorem C59_grouped :
  forall l s t a r, Forall alone l -> record_all l start = Some s -> mentions t l = a ++ [r] -> r_grouped r = true ->
  exists sl e, find t (s_db s) = Some sl /\ latest sl e /\ (forall u, In u (e_also e) <-> In u (map tname (r_targets r))).
Proof.
  intros l s t a r A R M G. pose proof (record_all_ok l start (alone_good l A)) as H. rewrite R in H. destruct H as [H _]. destruct (H t) as [H1 _].
  rewrite M, run_app in H1. destruct (run t a (view t (s_db start))) as [x|]; [|discriminate]. cbn [run] in H1. destruct (upd r (grp r) t x) as [y|] eqn:U; [|discriminate]. injection H1 as H1.
  assert (K : exists e, latest y e /\ e_also e = grp r /\ e_target e = true).
  { unfold upd in U. destruct (r_two r); cbn [negb] in U; destruct x as [e0|es].
    - destruct (e_target e0); [discriminate|]. injection U as <-. eexists. split; [exists []; reflexivity|]. cbn [e_also e_target]. unfold also. rewrite G. split; reflexivity.
    - injection U as <-. eexists. split; [eexists; reflexivity|]. cbn [e_also e_target]. unfold also. rewrite G. split; reflexivity.
    - injection U as <-. eexists. split; [reflexivity|]. cbn [e_also e_target]. unfold also. rewrite G. split; reflexivity.
    - discriminate. }
  destruct K as (e & L & AL & T). exists y, e. split; [|split; [exact L|]].
  - unfold view in H1. destruct (find t (s_db s)) as [z|]; [subst; reflexivity|]. subst y. cbn [latest] in L. subst e. discriminate.
  - intros u. rewrite AL. unfold grp. symmetry. apply in_rev.
Qed.
Print Assumptions C59_grouped.

(** Pattern rules are kept apart, in the order of the makefile. *)
Theorem C59_patterns :
  forall l s, Forall alone l -> record_all l start = Some s -> s_patterns s = filter (fun r => negb (explicit r)) l.
Proof.
  intros l s A R. pose proof (record_all_ok l start (alone_good l A)) as H. rewrite R in H. destruct H as [_ H]. exact H.
Qed.
Print Assumptions C59_patterns.

(** What no rule names is no target. *)
Theorem C59_only :
  forall l s t, Forall alone l -> record_all l start = Some s -> mentions t l = [] -> find t (s_db s) = None \/ find t (s_db s) = Some (Single blank_entry).
Proof.
  intros l s t A R M. pose proof (record_all_ok l start (alone_good l A)) as H. rewrite R in H. destruct H as [H _]. destruct (H t) as [H1 _].
  rewrite M in H1. change (view t (s_db start)) with (Single blank_entry) in H1. cbn [run] in H1. injection H1 as H1. unfold view in H1.
  destruct (find t (s_db s)) as [x|]; [right; rewrite H1; reflexivity|left; reflexivity].
Qed.
Print Assumptions C59_only.

(** ** Concrete cases *)
Definition D (n : string) : dep := mkdep n false.
Definition R (ts : list string) (ds : list string) (c : option nat) : rule := mkrule (map s2l ts) false false None (map D ds) (option_map (fun i => mkrecipe i []) c).
Definition R2 (ts : list string) (ds : list string) (c : option nat) : rule := mkrule (map s2l ts) true false None (map D ds) (option_map (fun i => mkrecipe i []) c).
Definition RG (ts : list string) (ds : list string) (c : option nat) : rule := mkrule (map s2l ts) false true None (map D ds) (option_map (fun i => mkrecipe i []) c).
Definition RS (ts : list string) (pre post : string) (ds : list string) (c : option nat) : rule := mkrule (map s2l ts) false false (Some (s2l pre, s2l post)) (map D ds) (option_map (fun i => mkrecipe i []) c).
Definition alone_b (r : rule) : bool :=
  negb (nil_b (r_targets r)) && (explicit r || implicit r) && forallb (fun n => str_eqb (clean (tname n)) (tname n) && negb (nil_b (tname n))) (r_targets r) &&
  (negb (r_grouped r) || negb (none_b (r_cmds r))) && (explicit r || none_b (r_pattern r)).
Lemma alone_b_ok r : alone_b r = true -> alone r.
Proof.
  unfold alone_b. rewrite !andb_true_iff. intros ((((A & B) & C) & G) & E). rewrite forallb_forall in C. split; [split; [|split]|split; [|split]].
  - intros X. rewrite X in A. discriminate.
  - apply orb_true_iff. exact B.
  - apply Forall_forall. intros n I. apply C in I. apply andb_true_iff in I. apply str_eqb_eq. exact (proj1 I).
  - apply Forall_forall. intros n I X. apply C in I. apply andb_true_iff in I. rewrite X in I. destruct I. discriminate.
  - intros X Y. rewrite X, Y in G. discriminate.
  - intros X. rewrite X in E. destruct (r_pattern r); [discriminate|reflexivity].
Qed.
Lemma alones l : forallb alone_b l = true -> Forall alone l.
Proof. intros H. rewrite forallb_forall in H. apply Forall_forall. intros r I. apply alone_b_ok, H, I. Qed.
Ltac alone := first [apply alones|apply alone_b_ok]; vm_compute; reflexivity.
(** a: h / a b: a.c ; 1 / a: z / ./x.o y.o: %.o: %.c c.h ; 2 / d:: p ; 3 / d:: q ; 4 / m n &: k ; 5 / %.o: %.c ; 6 *)
Definition ex : list rule :=
  [R ["a"] ["h"] None; R ["a"; "b"] ["a.c"] (Some 1); R ["a"] ["z"] None; RS ["x.o"; "y.o"] "" ".o" ["%.c"; "c.h"] (Some 2);
   R2 ["d"] ["p"] (Some 3); R2 ["d"] ["q"] (Some 4); RG ["m"; "n"] ["k"] (Some 5); R ["%.o"] ["%.c"] (Some 6); R ["b"] [] (Some 7);
   R [".SUFFIXES"] [".x"] None; R [".SUFFIXES"] [] None; R [".SUFFIXES"] [".c"; ".o"] None; R [".DEFAULT"] [] (Some 8); R [".DEFAULT"] [] None].
Example C59_alone_ex : Forall alone ex.
Proof. alone. Qed.
Definition seen (t : string) : option (list (list (list ascii) * option nat * option str)) :=
  match record_all ex start with
  | Some s => match find t (s_db s) with
              | Some (Single e) => Some [(map d_name (e_deps e), option_map c_id (e_cmds e), e_stem e)]
              | Some (Double es) => Some (map (fun e => (map d_name (e_deps e), option_map c_id (e_cmds e), e_stem e)) es)
              | None => None
              end
  | None => None
  end.
Example C59_single_ex : seen "a" = Some [([s2l "a.c"; s2l "h"; s2l "z"], Some 1, None)] /\ seen "x.o" = Some [([s2l "x.c"; s2l "c.h"], Some 2, Some (s2l "x"))] /\
  mentions "a" ex <> [] /\ kind false (mentions "a" ex) /\ stemmed "x.o" (mentions "x.o" ex).
Proof.
  split; [vm_compute; reflexivity|]. split; [vm_compute; reflexivity|]. split; [discriminate|]. split; [repeat constructor|]. split; [discriminate|]. left.
  unfold no_space. intros c I. cbn in I. repeat (destruct I as [<- |I]; [reflexivity|]). destruct I.
Qed.
Example C59_double_ex : seen "d" = Some [([s2l "p"], Some 3, None); ([s2l "q"], Some 4, None)] /\ kind true (mentions "d" ex).
Proof. split; [vm_compute; reflexivity|repeat constructor]. Qed.
Example C59_stops_ex : record_all (ex ++ [R2 ["a"] [] None]) start = None /\ record_all (ex ++ [R ["d"] [] None]) start = None /\ record_all ex start <> None.
Proof. vm_compute. repeat split; discriminate. Qed.
Example C59_warned_ex : option_map s_warn (record_all ex start) = Some [W_override "b"] /\ two_recipes (mentions "b" ex).
Proof.
  split; [vm_compute; reflexivity|]. exists [], (R ["a"; "b"] ["a.c"] (Some 1)), (mkrecipe 1 []), [], (R ["b"] [] (Some 7)), (mkrecipe 7 []), [].
  split; [vm_compute; reflexivity|]. repeat split; discriminate.
Qed.
Example C59_suffixes_ex : seen ".SUFFIXES" = Some [([s2l ".c"; s2l ".o"], None, None)] /\ seen ".DEFAULT" = Some [([], None, None)] /\
  mentions n_suffixes ex = [R [".SUFFIXES"] [".x"] None] ++ R [".SUFFIXES"] [] None :: [R [".SUFFIXES"] [".c"; ".o"] None].
Proof. vm_compute. repeat split. Qed.
Example C59_special_kept_ex :
  let l := [RS [".SUFFIXES"] "." "ES" [".%"; ".c"] None; R [".SUFFIXES"] [".o"] None] in
  Forall alone l /\ Forall (fun r => ~ barren n_suffixes r) (mentions n_suffixes l) /\ mentions n_suffixes l = l /\
  match record_all l start with Some s => match find n_suffixes (s_db s) with Some (Single e) => map d_name (e_deps e) = [s2l ".SUFFIX"; s2l ".c"; s2l ".o"] | _ => False end | None => False end.
Proof.
  split; [alone|]. split; [|vm_compute; split; reflexivity]. repeat constructor; intros H; apply barren_nil in H; vm_compute in H; discriminate.
Qed.
Example C59_grouped_ex : match record_all ex start with Some s => match find "n" (s_db s) with Some (Single e) => e_also e = [s2l "n"; s2l "m"] | _ => False end | None => False end.
Proof. vm_compute. reflexivity. Qed.
Example C59_patterns_ex : option_map s_patterns (record_all ex start) = Some [R ["%.o"] ["%.c"] (Some 6)].
Proof. vm_compute. reflexivity. Qed.

(** ** Where the code differs *)
(** A static pattern rule whose target has a space in its name (written [libx\ y.o: lib%.o: %.c]): the file's
    prerequisite should be [x y.c]; make records the one file [libx.c y.o.c], and the stem [libx y.o]. *)
Theorem C59_static_blank_refuted :
  exists r t s e, alone r /\ mentions t [r] = [r] /\ record_all [r] start = Some s /\ find t (s_db s) = Some (Single e) /\
    gives t r [D "x y.c"] /\ map d_name (e_deps e) = [s2l "libx.c y.o.c"] /\ e_stem e = Some (s2l "libx y.o").
Proof.
  exists (RS ["libx y.o"] "lib" ".o" ["%.c"] (Some 1)), (s2l "libx y.o"). eexists. eexists.
  split; [alone|]. split; [vm_compute; reflexivity|]. split; [vm_compute; reflexivity|]. split; [vm_compute; reflexivity|]. split; [|vm_compute; split; reflexivity].
  change [D "x y.c"] with (flat_map (instance "x y") (map D ["%.c"])). apply (gives_stem _ (RS ["libx y.o"] "lib" ".o" ["%.c"] (Some 1)) "lib" ".o" "x y"); reflexivity.
Qed.
Print Assumptions C59_static_blank_refuted.
(** A right stem with a space in it: its every word gets the suffix. *)
Theorem C59_stem_blank_refuted :
  exists r t s e, alone r /\ mentions t [r] = [r] /\ record_all [r] start = Some s /\ find t (s_db s) = Some (Single e) /\
    gives t r [D "a b.c"] /\ map d_name (e_deps e) = [s2l "a.c b.c"].
Proof.
  exists (RS ["a b"] "" "" ["%.c"] (Some 1)), (s2l "a b"). eexists. eexists.
  split; [alone|]. split; [vm_compute; reflexivity|]. split; [vm_compute; reflexivity|]. split; [vm_compute; reflexivity|]. split; [|vm_compute; reflexivity].
  change [D "a b.c"] with (flat_map (instance "a b") (map D ["%.c"])). apply (gives_stem _ (RS ["a b"] "" "" ["%.c"] (Some 1)) "" "" "a b"); reflexivity.
Qed.
Print Assumptions C59_stem_blank_refuted.
(** One writing, two files: [a\%b] is the file [a%b] as a target and the file [a\%b] as a prerequisite, so the
    prerequisite of the first rule is not the target of the second. *)
Theorem C59_percent_refuted :
  exists l s w e, Forall alone l /\ record_all l start = Some s /\ In [w] (map r_targets l) /\
    find "all" (s_db s) = Some (Single e) /\ map d_name (e_deps e) = [w] /\ tname w <> w /\
    find w (s_db s) = Some (Single blank_entry) /\ exists e', find (tname w) (s_db s) = Some (Single e') /\ e_target e' = true.
Proof.
  exists [R ["all"] ["a\%b"] None; R ["a\%b"] [] (Some 1)]. eexists. exists (s2l "a\%b"). eexists.
  split; [alone|]. split; [vm_compute; reflexivity|]. split; [right; left; reflexivity|]. split; [vm_compute; reflexivity|]. split; [vm_compute; reflexivity|]. split; [vm_compute; discriminate|].
  split; [vm_compute; reflexivity|]. eexists. split; vm_compute; reflexivity.
Qed.
Print Assumptions C59_percent_refuted.
(** A target that a rule names twice gets its prerequisites twice. *)
Theorem C59_twice_refuted :
  exists r s e, alone r /\ record_all [r] start = Some s /\ find "a" (s_db s) = Some (Single e) /\ r_deps r = [D "x"] /\ e_deps e = [D "x"; D "x"] /\ s_warn s = [W_twice "a"].
Proof.
  exists (R ["a"; "a"] ["x"] (Some 1)). eexists. eexists. split; [alone|]. repeat split; vm_compute; reflexivity.
Qed.
Print Assumptions C59_twice_refuted.
