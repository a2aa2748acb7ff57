From Verif Require Import Base M_Text S_Text P_Text P_Text3 M_Quote S_Quote P_Quote M_Seq S_Seq P_Seq M_Rules S_Rules.
Open Scope string_scope.
Open Scope list_scope.
Open Scope nat_scope.

(** ** The table *)
Lemma find_put n s d m : find m (put n s d) = if str_eqb m n then Some s else find m d.
Proof.
  induction d as [|[k t] d IH]; cbn [put find]; [destruct (str_eqb m n); reflexivity|].
  destruct (str_eqb n k) eqn:E; cbn [find].
  - apply str_eqb_eq in E. subst k. destruct (str_eqb m n); reflexivity.
  - destruct (str_eqb m k) eqn:F; [|exact IH]. apply str_eqb_eq in F. subst k. destruct (str_eqb m n) eqn:G; [|reflexivity].
    apply str_eqb_eq in G. subst n. rewrite str_eqb_refl in E. discriminate.
Qed.
Definition view (t : str) (d : db) : slot := match find t d with Some s => s | None => Single blank_entry end.
Lemma view_put n s d m : view m (put n s d) = if str_eqb m n then s else view m d.
Proof. unfold view. rewrite find_put. destruct (str_eqb m n); reflexivity. Qed.
Lemma view_enter n d t : view t (enter n d) = view t d.
Proof.
  unfold enter. destruct (lookup_file n d); [reflexivity|]. destruct (find n d) eqn:F; [reflexivity|]. rewrite view_put.
  destruct (str_eqb t n) eqn:E; [|reflexivity]. apply str_eqb_eq in E. subst t. unfold view. rewrite F. reflexivity.
Qed.
Lemma view_enter_all l : forall d t, view t (enter_all l d) = view t d.
Proof. unfold enter_all. induction l as [|x l IH]; intros d t; [reflexivity|]. cbn [fold_left]. rewrite IH. apply view_enter. Qed.
Lemma find_enter n d t : find t d <> None -> find t (enter n d) = find t d.
Proof.
  intros H. unfold enter. destruct (lookup_file n d); [reflexivity|]. destruct (find n d) eqn:F; [reflexivity|]. rewrite find_put.
  destruct (str_eqb t n) eqn:E; [|reflexivity]. apply str_eqb_eq in E. subst t. congruence.
Qed.
Lemma find_enter_all l : forall d t, find t d <> None -> find t (enter_all l d) = find t d.
Proof. unfold enter_all. induction l as [|x l IH]; intros d t H; [reflexivity|]. cbn [fold_left]. rewrite IH; [apply find_enter; exact H|]. rewrite (find_enter _ _ _ H). exact H. Qed.
Lemma lookup_clean n d : n <> [] -> clean n = n -> lookup_file n d = find n d.
Proof. intros NE C. unfold lookup_file. rewrite strip_clean by lia. rewrite C. reflexivity. Qed.

(** ** Names *)
Lemma percent_unq n : find_percent_cached n = Some (mkfound (fst (unq pct 0 n)) (snd (unq pct 0 n))).
Proof.
  rewrite find_percent_cached_eq. unfold find_percent. rewrite find_char_unquote_spec by discriminate. change (fun c : ascii => c =?c c_percent) with pct.
  destruct (unq pct 0 n). reflexivity.
Qed.
Lemma has_percent_is n : has_percent n = is_pattern n.
Proof. unfold has_percent, is_pattern. rewrite percent_unq. cbn [f_rest]. destruct (snd (unq pct 0 n)); reflexivity. Qed.
Lemma unpercent_spec l : forallb (fun n => negb (is_pattern n)) l = true -> unpercent l = Some (map tname l, false).
Proof.
  induction l as [|n l IH]; [reflexivity|]. cbn [forallb unpercent map]. intros H. apply andb_true_iff in H. destruct H as [H1 H2]. rewrite (IH H2), percent_unq.
  unfold is_pattern in H1. unfold whole, tname. cbn [f_rest f_before]. destruct (snd (unq pct 0 n)); [discriminate|]. reflexivity.
Qed.

(** ** Prerequisites of static pattern rules *)
Lemma words_one s : s <> [] -> no_space s -> words s = [s].
Proof.
  intros NE H. unfold words. assert (G : forall s cur, cur ++ s <> [] -> no_space s -> words_from cur s = [cur ++ s]).
  { clear. induction s as [|c s IH]; intros cur NE H; cbn [words_from].
    - rewrite app_nil_r in *. unfold flush. destruct cur; [congruence|reflexivity].
    - rewrite (H c (or_introl eq_refl)). rewrite IH; [rewrite <- app_assoc; reflexivity| |intros x I; apply H; right; exact I]. rewrite <- app_assoc. exact NE. }
  exact (G s [] NE H).
Qed.
Lemma patsubst_one w pre post rpre rpost : w <> [] -> no_space w ->
  patsubst_expand_pat w pre (Some post) rpre (Some rpost) = Some (if pat_match pre post w then rpre ++ firstn (length w - (length pre + length post)) (skipn (length pre) w) ++ rpost else w).
Proof.
  intros NE NS. unfold patsubst_expand_pat. rewrite each_token_words, (words_one w NE NS). cbn [fold_left option_map]. unfold patsubst_word.
  assert (L : 0 <? length w + length rpost = true) by (destruct w; [congruence|reflexivity]). rewrite L. destruct (pat_match pre post w); cbn [negb orb].
  - rewrite orb_true_r. unfold kill_last, put_sp, M_Text.put, o0. cbn [doneany otext app]. rewrite removelast_last, <- app_assoc. reflexivity.
  - unfold kill_last, put_sp, M_Text.put, o0. cbn [doneany otext app]. rewrite removelast_last. reflexivity.
Qed.
Lemma mid (pre stem post : str) : firstn (length (pre ++ stem ++ post) - (length pre + length post)) (skipn (length pre) (pre ++ stem ++ post)) = stem.
Proof.
  rewrite skipn_app, skipn_all, Nat.sub_diag. cbn [skipn app]. rewrite !app_length. replace (length pre + (length stem + length post) - (length pre + length post)) with (length stem + 0) by lia.
  rewrite firstn_app_2. cbn [firstn]. apply app_nil_r.
Qed.
Lemma stem_of_spec pre stem post : no_space (pre ++ stem ++ post) -> pre ++ stem ++ post <> [] -> stem_of pre post (pre ++ stem ++ post) = stem.
Proof.
  intros NS NE. unfold stem_of. rewrite patsubst_one by assumption. assert (P : pat_match pre post (pre ++ stem ++ post) = true) by (apply pat_match_iff; exists stem; reflexivity).
  rewrite P, mid. cbn [app]. apply app_nil_r.
Qed.
Lemma unq_hit special s : forall n w r, unq special n s = (w, Some r) -> exists x r', r = x :: r' /\ special x = true.
Proof.
  induction s as [|c s IH]; intros n w r U; cbn [unq] in U; [discriminate|]. destruct (c =?c c_bslash); [exact (IH _ _ _ U)|].
  destruct (special c) eqn:E; [destruct (Nat.even n)|].
  - apply pair_equal_spec in U. destruct U as [_ U]. injection U as <-. exists c, s. split; [reflexivity|exact E].
  - destruct (unq special 0 s) as [b r'] eqn:U'. apply pair_equal_spec in U. destruct U as [_ ->]. exact (IH _ _ _ U').
  - destruct (unq special 0 s) as [b r'] eqn:U'. apply pair_equal_spec in U. destruct U as [_ ->]. exact (IH _ _ _ U').
Qed.
Lemma dep_stem_spec stem x : no_space stem -> dep_stem stem x = instance stem x.
Proof.
  intros NS. unfold dep_stem, instance, find_percent. rewrite find_char_unquote_spec by discriminate. change (fun c : ascii => c =?c c_percent) with pct.
  destruct (unq pct 0 (d_name x)) as [p r] eqn:U. unfold split_percent. cbn [f_before f_rest]. destruct r as [[|c q]|]; cbn [option_map tl].
  - (* the rest begins with the percent sign *) destruct (unq_hit _ _ _ _ _ U) as (? & ? & ? & _). discriminate.
  - destruct stem as [|s0 stem].
    + cbn [app]. destruct (p ++ q); reflexivity.
    + rewrite patsubst_one by (try discriminate; exact NS). assert (P : pat_match [] [] (s0 :: stem) = true) by (apply pat_match_iff; exists (s0 :: stem); cbn [app]; rewrite app_nil_r; reflexivity).
      rewrite P. pose proof (mid [] (s0 :: stem) []) as M. cbn [app] in M. rewrite app_nil_r in M. rewrite M. destruct (p ++ (s0 :: stem) ++ q) eqn:E; [destruct p; discriminate|]. reflexivity.
  - reflexivity.
Qed.

Lemma this_deps_gives t r : t <> [] -> (r_pattern r = None \/ no_space t) -> gives t r (this_deps r t).
Proof.
  intros NE H. unfold this_deps. destruct (r_pattern r) as [[pre post]|] eqn:P; [|apply gives_plain; exact P]. destruct H as [H|H]; [discriminate|].
  destruct (pattern_matches_at pre post t) eqn:M.
  - apply pattern_matches_at_iff in M. destruct M as [stem M]. subst t. rewrite (stem_of_spec pre stem post H NE).
    assert (E : flat_map (dep_stem stem) (r_deps r) = flat_map (instance stem) (r_deps r)).
    { assert (NS : no_space stem) by (intros c I; apply H; apply in_or_app; right; apply in_or_app; left; exact I).
      induction (r_deps r) as [|x l IH]; [reflexivity|]. cbn [flat_map]. rewrite IH, (dep_stem_spec stem x NS). reflexivity. }
    rewrite E. eapply gives_stem; [exact P|reflexivity].
  - eapply gives_none; [exact P|]. intros (stem & E). assert (X : pattern_matches_at pre post t = true) by (apply pattern_matches_at_iff; exists stem; exact E). congruence.
Qed.

(** ** One target *)
Definition upd (r : rule) (g : list str) (n : str) (sl : slot) : option slot :=
  let this := this_deps r n in
  if negb (r_two r) then
    match sl with
    | Double _ => None
    | Single e =>
        Some (Single (mkentry (add_deps (r_cmds r) this (if str_eqb n n_suffixes && nil_b (raw_deps r n) then [] else e_deps e))
          (match r_cmds r with Some c => Some c | None => if str_eqb n n_default && nil_b (raw_deps r n) then None else e_cmds e end)
          true (this_stem r n (e_stem e)) (also r g (e_also e))))
    end
  else
    let make e := mkentry (add_deps (r_cmds r) this (e_deps e)) (r_cmds r) true (this_stem r n (e_stem e)) (also r g (e_also e)) in
    match sl with
    | Double l => Some (Double (l ++ [make blank_entry]))
    | Single e => if e_target e then None else Some (Double [make e])
    end.
Definition warn (r : rule) (n : str) (sl : slot) : list warning :=
  match r_pattern r with Some (pre, post) => if pattern_matches_at pre post n then [] else [W_nomatch n] | None => [] end ++
  if negb (r_two r) then
    match sl with
    | Single e => if same_cmds (r_cmds r) (e_cmds e) then [W_twice n]
                  else if negb (none_b (r_cmds r)) && negb (none_b (e_cmds e)) && e_target e then [W_override n] else []
    | Double _ => []
    end
  else [].
Lemma record_target_upd r g n s : n <> [] -> clean n = n ->
  record_target r g n s =
  match upd r g n (view n (s_db s)) with
  | None => None
  | Some sl => Some (mkstate (match r_pattern r with Some _ => enter_all (this_deps r n) (put n sl (s_db s)) | None => put n sl (s_db s) end)
                             (s_patterns s) (s_warn s ++ warn r n (view n (s_db s))))
  end.
Proof.
  intros NE C. unfold record_target, upd, warn. rewrite (lookup_clean n _ NE C). unfold view. destruct (find n (s_db s)) as [[e|l]|]; destruct (r_two r); cbn [negb]; try reflexivity.
  - destruct (e_target e); reflexivity.
Qed.
Definition grp (r : rule) : list str := rev (map tname (r_targets r)).
Fixpoint run (t : str) (l : list rule) (sl : slot) : option slot :=
  match l with [] => Some sl | r :: l' => match upd r (grp r) t sl with Some sl' => run t l' sl' | None => None end end.
Fixpoint warns (t : str) (l : list rule) (sl : slot) : list warning :=
  match l with [] => [] | r :: l' => match upd r (grp r) t sl with Some sl' => warn r t sl ++ warns t l' sl' | None => [] end end.
Lemma run_app t a : forall b sl, run t (a ++ b) sl = match run t a sl with Some sl' => run t b sl' | None => None end.
Proof. induction a as [|r a IH]; intros b sl; [reflexivity|]. cbn [app run]. destruct (upd r (grp r) t sl); [apply IH|reflexivity]. Qed.
Lemma warns_app t a : forall b sl sl', run t a sl = Some sl' -> warns t (a ++ b) sl = warns t a sl ++ warns t b sl'.
Proof.
  induction a as [|r a IH]; intros b sl sl' R; cbn [app run warns] in *; [injection R as ->; reflexivity|]. destruct (upd r (grp r) t sl) as [x|]; [|discriminate].
  rewrite (IH b x sl' R), app_assoc. reflexivity.
Qed.
Definition about (t : str) (w : warning) : bool := match w with W_override n | W_twice n | W_nomatch n => str_eqb t n | W_mixed => false end.
Lemma warn_about r n sl t : filter (about t) (warn r n sl) = if str_eqb t n then warn r n sl else [].
Proof.
  assert (G : Forall (fun w => about t w = str_eqb t n) (warn r n sl)).
  { unfold warn. apply Forall_app. split; [destruct (r_pattern r) as [[a b]|]; [destruct (pattern_matches_at a b n)|]; repeat constructor|].
    destruct (negb (r_two r)); [|constructor]. destruct sl as [e|l]; [|constructor]. destruct (same_cmds _ _); [repeat constructor|]. destruct (_ && _); repeat constructor. }
  induction G as [|w l H F IH]; [destruct (str_eqb t n); reflexivity|]. cbn [filter]. rewrite H, IH. destruct (str_eqb t n); reflexivity.
Qed.
Definition here (t : str) (r : rule) (names : list str) : list rule := map (fun _ => r) (filter (str_eqb t) names).
Lemma targets_ok r names : forall s, Forall (fun n => n <> [] /\ clean n = n) names ->
  match record_targets r (grp r) names s with
  | Some s' => forall t, run t (here t r names) (view t (s_db s)) = Some (view t (s_db s')) /\
                 filter (about t) (s_warn s') = filter (about t) (s_warn s) ++ warns t (here t r names) (view t (s_db s))
  | None => exists t, run t (here t r names) (view t (s_db s)) = None
  end.
Proof.
  induction names as [|n names IH]; intros s F; cbn [record_targets]; [intros t; split; [reflexivity|cbn [here filter map warns]; rewrite app_nil_r; reflexivity]|].
  inversion F as [|? ? [NE C] F']; subst. rewrite (record_target_upd r (grp r) n s NE C). destruct (upd r (grp r) n (view n (s_db s))) as [sl|] eqn:U.
  - match goal with |- context [record_targets r (grp r) names ?x] => set (s1 := x) end. specialize (IH s1 F').
    assert (V : forall t, view t (s_db s1) = if str_eqb t n then sl else view t (s_db s)).
    { intros t. unfold s1. cbn [s_db]. destruct (r_pattern r); [rewrite view_enter_all|]; apply view_put. }
    assert (H : forall t, run t (here t r (n :: names)) (view t (s_db s)) = run t (here t r names) (view t (s_db s1))).
    { intros t. rewrite V. unfold here. cbn [filter]. destruct (str_eqb t n) eqn:E; [|reflexivity]. apply str_eqb_eq in E. subst t. cbn [map run]. rewrite U. reflexivity. }
    destruct (record_targets r (grp r) names s1) as [s'|].
    + intros t. destruct (IH t) as [IH1 IH2]. split; [rewrite H; exact IH1|]. rewrite IH2, V. unfold s1. cbn [s_warn]. rewrite filter_app, warn_about, <- app_assoc. f_equal.
      unfold here. cbn [filter]. destruct (str_eqb t n) eqn:E; [|reflexivity]. apply str_eqb_eq in E. subst t. cbn [map warns]. rewrite U. reflexivity.
    + destruct IH as [t IH]. exists t. rewrite H. exact IH.
  - exists n. unfold here. cbn [filter]. rewrite str_eqb_refl. cbn [map run]. rewrite U. reflexivity.
Qed.

(** ** All rules *)
Lemma here_mentions t r : explicit r = true -> here t r (map tname (r_targets r)) = mentions t [r].
Proof.
  intros E. unfold here, mentions. cbn [flat_map]. rewrite E, app_nil_r. induction (r_targets r) as [|n l IH]; [reflexivity|]. cbn [map filter]. destruct (str_eqb t (tname n)); cbn [map]; rewrite IH; reflexivity.
Qed.
(** make does not stop for a reason of the rule alone *)
Definition sound (r : rule) : Prop := (r_grouped r = true -> r_cmds r <> None) /\ (explicit r = false -> r_pattern r = None).

Lemma record_files_ok r s : proper r -> sound r -> Forall (fun n => tname n <> []) (r_targets r) ->
  match record_files r s with
  | Some s' => forall t, run t (mentions t [r]) (view t (s_db s)) = Some (view t (s_db s')) /\
                 filter (about t) (s_warn s') = filter (about t) (s_warn s) ++ warns t (mentions t [r]) (view t (s_db s)) /\
                 s_patterns s' = s_patterns s ++ (if explicit r then [] else [r])
  | None => exists t, run t (mentions t [r]) (view t (s_db s)) = None
  end.
Proof.
  intros (NE & K & C) (S1 & S2) NN. unfold record_files.
  assert (G : r_grouped r && none_b (r_cmds r) = false).
  { destruct (r_grouped r); [|reflexivity]. specialize (S1 eq_refl). destruct (r_cmds r); [reflexivity|congruence]. }
  rewrite G. destruct (r_targets r) as [|t0 ts] eqn:T; [congruence|]. rewrite has_percent_is. destruct (is_pattern t0) eqn:P.
  - destruct K as [K|K]; [unfold explicit in K; rewrite T in K; cbn [forallb] in K; rewrite P in K; discriminate|].
    assert (EX : explicit r = false) by (unfold explicit; rewrite T; cbn [forallb]; rewrite P; reflexivity). rewrite (S2 EX). cbn [none_b negb].
    unfold implicit in K. rewrite T in K. cbn [forallb] in K. apply andb_true_iff in K. destruct K as [_ K].
    assert (FP : forallb has_percent ts = true) by (rewrite <- K; clear; induction ts as [|a l IH]; [reflexivity|]; cbn [forallb]; rewrite IH, has_percent_is; reflexivity). rewrite FP.
    intros t. unfold mentions. cbn [flat_map s_db s_warn s_patterns]. rewrite EX. cbn [app run warns]. rewrite app_nil_r. repeat split.
  - assert (EX : explicit r = true).
    { destruct K as [K|K]; [exact K|]. unfold implicit in K. rewrite T in K. cbn [forallb] in K. rewrite P in K. discriminate. }
    pose proof EX as EX'. unfold explicit in EX'. rewrite T in EX'. rewrite (unpercent_spec _ EX').
    match goal with |- context [record_targets r _ _ ?x] => set (s1 := x) end.
    assert (GR : rev (map tname (t0 :: ts)) = grp r) by (unfold grp; rewrite T; reflexivity). rewrite GR.
    assert (FN : Forall (fun n => n <> [] /\ clean n = n) (map tname (t0 :: ts))).
    { clear - C NN. induction (t0 :: ts) as [|a l IH]; [constructor|]. inversion C; inversion NN; subst. cbn [map]. constructor; [split; assumption|apply IH; assumption]. }
    pose proof (targets_ok r (map tname (t0 :: ts)) s1 FN) as H.
    assert (V : forall t, view t (s_db s1) = view t (s_db s)) by (intros t; unfold s1; cbn [s_db]; destruct (r_pattern r); [reflexivity|apply view_enter_all]).
    assert (M : forall t, here t r (map tname (t0 :: ts)) = mentions t [r]) by (intros t; rewrite <- T; apply here_mentions; exact EX).
    assert (PT : forall names s s', record_targets r (grp r) names s = Some s' -> s_patterns s' = s_patterns s).
    { clear. induction names as [|n names IH]; intros s s' H; cbn [record_targets] in H; [injection H as <-; reflexivity|].
      destruct (record_target r (grp r) n s) as [x|] eqn:R; [|discriminate]. rewrite (IH _ _ H). unfold record_target in R.
      destruct (negb (r_two r)).
      - destruct (find n (s_db s)) as [[e|l]|]; [|discriminate|]; injection R as <-; reflexivity.
      - destruct (match lookup_file n (s_db s) with Some (Single e) => e_target e | _ => false end); [discriminate|]. destruct (find n (s_db s)) as [[e|l]|]; injection R as <-; reflexivity. }
    destruct (record_targets r (grp r) (map tname (t0 :: ts)) s1) as [s'|] eqn:R.
    + intros t. destruct (H t) as [H1 H2]. rewrite M, V in H1. rewrite M, V in H2. split; [exact H1|]. rewrite EX, app_nil_r, (PT _ _ _ R). split; [|reflexivity].
      rewrite H2. unfold s1. cbn [s_warn]. rewrite app_nil_r. reflexivity.
    + destruct H as [t H]. exists t. rewrite <- M, <- V. exact H.
Qed.
Lemma mentions_cons t r l : mentions t (r :: l) = mentions t [r] ++ mentions t l.
Proof. unfold mentions. cbn [flat_map]. rewrite app_nil_r. reflexivity. Qed.
Definition good_rule (r : rule) : Prop := proper r /\ sound r /\ Forall (fun n => tname n <> []) (r_targets r).
Lemma record_all_ok l : forall s, Forall good_rule l ->
  match record_all l s with
  | Some s' => (forall t, run t (mentions t l) (view t (s_db s)) = Some (view t (s_db s')) /\
                 filter (about t) (s_warn s') = filter (about t) (s_warn s) ++ warns t (mentions t l) (view t (s_db s))) /\
               s_patterns s' = s_patterns s ++ filter (fun r => negb (explicit r)) l
  | None => exists t, run t (mentions t l) (view t (s_db s)) = None
  end.
Proof.
  induction l as [|r l IH]; intros s F; cbn [record_all].
  - cbn [mentions flat_map run warns filter]. split; [intros t; rewrite app_nil_r; split; reflexivity|rewrite app_nil_r; reflexivity].
  - inversion F as [|? ? (P & S0 & N) F']; subst. pose proof (record_files_ok r s P S0 N) as H. destruct (record_files r s) as [s1|].
    + specialize (IH s1 F'). destruct (record_all l s1) as [s'|].
      * destruct IH as [IH IHP]. split.
        -- intros t. destruct (H t) as (H1 & H2 & _). destruct (IH t) as [I1 I2]. rewrite mentions_cons. split; [rewrite run_app, H1; exact I1|].
           rewrite I2, H2, (warns_app _ _ _ _ _ H1), app_assoc. reflexivity.
        -- destruct (H []) as (_ & _ & H3). rewrite IHP, H3, <- app_assoc. cbn [filter]. destruct (explicit r); reflexivity.
      * destruct IH as [t IH]. exists t. rewrite mentions_cons, run_app. destruct (H t) as (H1 & _). rewrite H1. exact IH.
    + destruct H as [t H]. exists t. rewrite mentions_cons, run_app, H. reflexivity.
Qed.
