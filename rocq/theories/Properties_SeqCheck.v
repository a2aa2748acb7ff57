(** The tests that W_Seq computes follow from the theorems of Properties_Seq and Properties_Glob. *)
From Coq Require Import NArith Lia.
From Verif Require Import Base S_Quote M_Seq S_Implicit S_Ar S_Seq P_Seq Properties_Seq S_Glob P_Glob Properties_Glob S_SeqCheck W_Random W_Seq.
Open Scope string_scope.
Open Scope list_scope.
Open Scope nat_scope.

Lemma read_words_reads stop blank : forall fuel t ws e, read_words stop blank fuel t = Some (ws, e) -> reads stop blank t ws e.
Proof.
  induction fuel as [|fuel IH]; intros t ws e H; [discriminate|]. cbn [read_words] in H. destruct (trim t) as [|c r] eqn:T; [injection H as <- <-; apply r_end; exact T|].
  destruct (stop c) eqn:S1; [injection H as <- <-; eapply r_stop; eassumption|].
  destruct (unq (fun x => stop x || blank x) 0 (c :: r)) as [w rest] eqn:U. destruct (read_words stop blank fuel _) as [[ws' e']|] eqn:R; [|discriminate]. injection H as <- <-.
  eapply r_word; [exact T|exact S1|exact U|]. apply IH. exact R.
Qed.
Lemma b_closing_iff w : b_closing w = true <-> closing w.
Proof.
  unfold b_closing, closing. destruct w as [|c w]; [split; [discriminate|intros (v & E); destruct v; discriminate]|]. split.
  - intros H. apply eqc_true in H. exists (removelast (c :: w)). rewrite <- H. apply app_removelast_last. discriminate.
  - intros (v & ->). destruct (v ++ [c_rparen]) eqn:E; [destruct v; discriminate|]. rewrite <- E, last_last. apply eqc_refl.
Qed.
Lemma cut_some : forall s a0 a m, cut_paren a0 s = Some (a, m) -> exists b, a = a0 ++ b /\ s = b ++ c_lparen :: m /\ ~ In c_lparen b.
Proof.
  induction s as [|c s IH]; intros a0 a m H; cbn [cut_paren] in H; [discriminate|]. destruct (c =?c c_lparen) eqn:C.
  - injection H as <- <-. apply eqc_true in C. subst c. exists []. rewrite app_nil_r. repeat split. intros [].
  - destruct (IH _ _ _ H) as (b & -> & -> & N). exists (c :: b). rewrite <- app_assoc. repeat split. intros [K|K]; [subst; discriminate|tauto].
Qed.
Lemma cut_none : forall s a0, cut_paren a0 s = None -> ~ In c_lparen s.
Proof.
  induction s as [|c s IH]; intros a0 H; cbn [cut_paren] in H; [intros []|]. destruct (c =?c c_lparen) eqn:C; [discriminate|]. intros [K|K]; [subst; discriminate|exact (IH _ H K)].
Qed.
Lemma cut_unique a a' m m' : a ++ c_lparen :: m = a' ++ c_lparen :: m' -> ~ In c_lparen a -> ~ In c_lparen a' -> a = a' /\ m = m'.
Proof.
  revert a'. induction a as [|c a IH]; intros [|c' a'] E N N'; cbn [app] in E.
  - injection E as ->. auto.
  - injection E as E0 _. destruct N'. left. congruence.
  - injection E as E0 _. destruct N. left. congruence.
  - injection E as -> E. destruct (IH a' E) as [-> ->]; [intros K; apply N; right; exact K|intros K; apply N'; right; exact K|]. auto.
Qed.
Lemma to_closing_some : forall ws ms z r, to_closing ws = Some (ms, z, r) -> ws = ms ++ (z ++ [c_rparen]) :: r /\ Forall (fun w => ~ closing w) ms.
Proof.
  induction ws as [|w ws IH]; intros ms z r H; cbn [to_closing] in H; [discriminate|]. destruct (b_closing w) eqn:B.
  - injection H as <- <- <-. apply b_closing_iff in B. destruct B as (v & ->). rewrite removelast_last. split; [reflexivity|constructor].
  - destruct (to_closing ws) as [[[ms' z'] r']|]; [|discriminate]. injection H as <- <- <-. destruct (IH _ _ _ eq_refl) as [-> F]. split; [reflexivity|]. constructor; [|exact F]. rewrite <- b_closing_iff, B. discriminate.
Qed.
Lemma to_closing_none : forall ws, to_closing ws = None -> ~ Exists closing ws.
Proof.
  induction ws as [|w ws IH]; intros H X; cbn [to_closing] in H; [inversion X|]. destruct (b_closing w) eqn:B; [discriminate|]. destruct (to_closing ws) as [[[ms' z'] r']|]; [discriminate|].
  inversion X as [? ? C|? ? C]; subst; [apply b_closing_iff in C; congruence|exact (IH eq_refl C)].
Qed.
Lemma group_grouped : forall fuel ws, length ws <= fuel -> grouped ws (group fuel ws).
Proof.
  induction fuel as [|fuel IH]; intros [|w ws] L; cbn [length] in L; [constructor|lia|constructor|]. cbn [group].
  assert (P : ~ (opening w /\ Exists closing ws) -> grouped (w :: ws) (w :: group fuel ws)) by (intros N; apply g_plain; [exact N|apply IH; lia]).
  destruct (cut_paren [] w) as [[[|a lib] m]|] eqn:C.
  - apply P. intros [(l & m' & E & NE & N & _) _]. destruct (cut_some _ _ _ _ C) as (b & B & E' & N'). cbn in B. subst b. rewrite E in E'. destruct (cut_unique _ _ _ _ E' N N'). congruence.
  - destruct (cut_some _ _ _ _ C) as (b & B & E' & N'). cbn [app] in B. subst b. destruct (b_closing w) eqn:BC.
    + apply P. intros [(l & m' & E & NE & N & NC) _]. apply NC. apply b_closing_iff. exact BC.
    + destruct (to_closing ws) as [[[ms z] r]|] eqn:TC.
      * destruct (to_closing_some _ _ _ _ TC) as [-> F]. rewrite E'. refine (g_group (a :: lib) m ms z r (group fuel r) _ N' _ F _); [discriminate| |].
        -- rewrite <- E', <- b_closing_iff, BC. discriminate.
        -- apply IH. rewrite app_length in L. cbn [length] in L. lia.
      * apply P. intros [_ X]. exact (to_closing_none _ TC X).
  - apply P. intros [(l & m' & E & _) _]. apply (cut_none _ _ C). rewrite E. apply in_or_app. right. left. reflexivity.
Qed.
Lemma b_files_files exist glob n : files exist glob n (b_files exist glob n).
Proof. apply files_iff. unfold b_files, globbed, b_wild. destruct exist; cbn [negb orb andb]; [reflexivity|]. destruct (existsb _ n); reflexivity. Qed.
Lemma b_home_home tilde n : home tilde n (b_home tilde n).
Proof. apply home_iff. unfold b_home. destruct n as [|c n]; reflexivity. Qed.
Lemma unquoted_iff : forall k p c r, length p <= k -> In (c, r) (unquoted p) <-> c <> c_bslash /\ exists a, whole a /\ p = a ++ c :: r.
Proof.
  induction k as [|k IH]; intros p c r L; (destruct p as [|x p]; [cbn; split; [intros []|intros (_ & a & _ & E); destruct a; discriminate]|]); cbn [length] in L; [lia|]. cbn [unquoted]. destruct (x =?c c_bslash) eqn:X.
  - apply eqc_true in X. subst x. destruct p as [|y p].
    + split; [intros []|]. intros (N & a & W & E). destruct W as [|d a D W|d a W]; [injection E; congruence|injection E; congruence|discriminate].
    + cbn [length] in L. rewrite (IH p c r ltac:(lia)). split; intros (N & a & W & E); (split; [exact N|]).
      * exists (c_bslash :: y :: a). split; [apply wh_two; exact W|]. rewrite E. reflexivity.
      * destruct W as [|d a D W|d a W]; [injection E; congruence|injection E; congruence|]. injection E as -> ->. exists a. auto.
  - assert (NX : x <> c_bslash) by (intros ->; discriminate). cbn [In]. rewrite (IH p c r ltac:(lia)). split.
    + intros [E|(N & a & W & ->)]; [injection E as <- <-; split; [exact NX|exists []; split; [constructor|reflexivity]]|]. split; [exact N|]. exists (x :: a). split; [apply wh_one; assumption|reflexivity].
    + intros (N & a & W & E). destruct W as [|d a D W|d a W]; injection E; [intros -> ->; left; reflexivity|intros -> ->; right; split; [exact N|]; exists a; auto|congruence].
Qed.
Lemma unquoted_in p c r : In (c, r) (unquoted p) <-> c <> c_bslash /\ exists a, whole a /\ p = a ++ c :: r.
Proof. apply (unquoted_iff (length p)). lia. Qed.
Lemma b_special_iff p : b_special p = true <-> special p.
Proof.
  unfold b_special, special. rewrite existsb_exists. split.
  - intros ([c r] & I & H). apply unquoted_in in I. destruct I as (_ & a & W & ->). exists a. split; [exact W|]. cbn [fst snd] in H. apply orb_true_iff in H. destruct H as [H|H].
    + left. exists c, r. split; [reflexivity|]. apply orb_true_iff in H. destruct H as [H|H]; apply eqc_true in H; auto.
    + right. apply andb_true_iff in H. destruct H as [H K]. apply eqc_true in H. subst c. apply existsb_exists in K. destruct K as ([d b] & J & K). apply unquoted_in in J. destruct J as (_ & m & M & ->).
      apply eqc_true in K. cbn in K. subst d. exists m, b. auto.
  - intros (a & W & [(c & b & -> & C)|(m & b & -> & M)]).
    + exists (c, b). split; [apply unquoted_in; split; [destruct C; subst; discriminate|exists a; auto]|]. cbn [fst]. destruct C; subst; rewrite eqc_refl, ?orb_true_r; reflexivity.
    + exists ("["%char, m ++ "]"%char :: b). split; [apply unquoted_in; split; [discriminate|exists a; auto]|]. cbn [fst snd]. apply orb_true_iff. right. rewrite eqc_refl. cbn [andb]. apply existsb_exists.
      exists ("]"%char, b). split; [apply unquoted_in; split; [discriminate|exists m; auto]|apply eqc_refl].
Qed.
Lemma b_closing_last m : b_closing (m ++ [c_rparen]) = true. Proof. apply b_closing_iff. exists m. reflexivity. Qed.
Lemma flat_concat {A B} (f : A -> list B) l : flat_map f l = concat (map f l). Proof. induction l as [|a l IH]; [reflexivity|]. cbn. rewrite IH. reflexivity. Qed.
Lemma b_stands_stands noar exist tilde glob members n :
  match b_stands noar exist tilde glob members n with Some l => stands noar exist tilde glob members n l | None => refused noar tilde n end.
Proof.
  unfold b_stands. pose proof (b_home_home tilde n) as H. set (n' := b_home tilde n) in *. cbv zeta.
  assert (F : (noar = true \/ ~ member_reference n') -> stands noar exist tilde glob members n (b_files exist glob n')) by (intros K; exact (st_file _ _ _ _ _ _ _ _ H K (b_files_files _ _ _))).
  destruct (cut_paren [] n') as [[[|a lib] m]|] eqn:C.
  - apply F. right. intros (x & y & E & NE & N & _). destruct (cut_some _ _ _ _ C) as (b & B & E' & N'). cbn in B. subst b. rewrite E in E'. destruct (cut_unique _ _ _ _ E' N N'). congruence.
  - destruct (cut_some _ _ _ _ C) as (b & B & E' & N'). cbn [app] in B. subst b. destruct noar; [apply F; left; reflexivity|]. cbn [orb].
    destruct (negb (b_closing n')) eqn:BC; [|destruct (length m <=? 1) eqn:L; cbn [orb]].
    + cbn [orb]. apply F. right. intros (x & y & E & _). apply negb_true_iff in BC. assert (K : b_closing n' = true); [|congruence]. apply b_closing_iff. exists (x ++ c_lparen :: y). rewrite E, <- app_assoc. reflexivity.
    + apply F. right. intros (x & y & E & NE & N & NY). rewrite E in E'. destruct (cut_unique _ _ _ _ E' N N') as [_ <-]. apply Nat.leb_le in L. rewrite app_length in L. cbn in L. destruct y; [congruence|cbn in L; lia].
    + apply negb_false_iff, b_closing_iff in BC. destruct BC as (v & V). apply Nat.leb_gt in L. assert (NE : m <> []) by (intros ->; cbn in L; lia). destruct (exists_last NE) as (m' & z & Q).
      assert (z = c_rparen). { rewrite E', Q in V. rewrite app_comm_cons, app_assoc in V. apply app_inj_tail in V. tauto. } subst z m. rewrite removelast_last. rewrite app_length in L. cbn in L.
      assert (NM : m' <> []) by (intros ->; cbn in L; lia). change ((a :: lib) ++ c_lparen :: m' ++ [c_rparen]) with (of_archive (a :: lib) m') in E'.
      destruct (match m' with [] => false | c :: e => (c =?c c_lparen) && b_closing e end) eqn:K.
      * split; [reflexivity|]. exists n'. split; [exact H|]. destruct m' as [|c e]; [discriminate|]. apply andb_true_iff in K. destruct K as [K1 K2]. apply eqc_true in K1. subst c. apply b_closing_iff in K2. destruct K2 as (u & ->).
        exists (a :: lib), u. split; [discriminate|]. split; [exact N'|exact E'].
      * rewrite flat_concat. rewrite E' in H. refine (st_member _ _ _ _ _ _ _ _ _ _ H eq_refl _ N' NM _ (b_files_files _ _ _) _); [discriminate| |].
        -- intros (x & e & NX & N & E). unfold of_archive in E. destruct (cut_unique _ _ _ _ E N' N) as [_ Y]. apply app_inj_tail in Y. destruct Y as [-> _]. rewrite eqc_refl, b_closing_last in K. discriminate.
        -- induction (b_files exist glob (a :: lib)) as [|x l IH]; [constructor|]. cbn [map]. constructor; [|exact IH]. destruct (b_special m') eqn:SP.
           ++ apply b_special_iff in SP. destruct (members x m') eqn:MM; [apply mn_plain; right; exact MM|]. match goal with |- member_names _ _ _ ?g => replace g with (map (of_archive x) (members x m')) by (rewrite MM; reflexivity) end. apply mn_found; [exact SP|congruence].
           ++ apply mn_plain. left. rewrite <- b_special_iff, SP. discriminate.
  - apply F. right. intros (x & y & E & _). apply (cut_none _ _ C). rewrite E. apply in_or_app. right. left. reflexivity.
Qed.
Lemma all_stand_spec noar exist tilde glob members ns :
  match all_stand (b_stands noar exist tilde glob members) ns with
  | Some l => exists ls, Forall2 (stands noar exist tilde glob members) ns ls /\ concat ls = l
  | None => Exists (refused noar tilde) ns
  end.
Proof.
  induction ns as [|n ns IH]; [exists []; split; [constructor|reflexivity]|]. cbn [all_stand]. pose proof (b_stands_stands noar exist tilde glob members n) as H. destruct (b_stands _ _ _ _ _ n) as [l|]; [|apply Exists_cons_hd; exact H].
  destruct (all_stand _ ns) as [l'|]; [|apply Exists_cons_tl; exact IH]. destruct IH as (ls & F & <-). exists (l :: ls). split; [constructor; assumption|reflexivity].
Qed.
Lemma quoted_stop_none stop s : quoted_stop stop s = false -> no_quoted_stop stop s.
Proof.
  intros H a x b E. revert a E. induction s as [|c s IH]; intros a E; [destruct a; discriminate|]. cbn [quoted_stop] in H. apply orb_false_iff in H. destruct H as [H1 H2]. destruct a as [|y a]; cbn [app] in E; injection E as -> ->.
  - exact H1.
  - exact (IH H2 a eq_refl).
Qed.
Lemma list_eqb_refl l : list_eqb l l = true. Proof. induction l as [|a l IH]; [reflexivity|]. cbn. rewrite str_eqb_refl. exact IH. Qed.
Lemma outcome_eqb_refl o : outcome_eqb o o = true. Proof. destruct o; cbn; rewrite ?list_eqb_refl, ?str_eqb_refl; reflexivity. Qed.

Theorem C58_check : forall stop oneword nostrip noar noglob exist nocache prefix tilde glob members text,
  good_stop stop -> t_seq stop oneword nostrip noar noglob exist nocache prefix tilde glob members text = true.
Proof.
  intros stop oneword nostrip noar noglob exist nocache prefix tilde glob members text GS. unfold t_seq.
  assert (NB : match parse_file_seq stop oneword nostrip noar noglob exist nocache prefix tilde glob members text with Overrun | NoFuel => false | _ => true end = true).
  { destruct (C58_buffer stop oneword nostrip noar noglob exist nocache prefix tilde glob members text GS) as [A B]. destruct (parse_file_seq _ _ _ _ _ _ _ _ _ _ _ _); congruence. }
  unfold expected. destruct (read_words _ _ _ text) as [[ws rest]|] eqn:R; [|exact NB]. apply read_words_reads in R. cbv zeta. set (names := map (fun w => if nostrip then w else clean w) ws).
  destruct (quoted_stop stop text && _) eqn:Q; [exact NB|].
  assert (Q' : no_quoted_stop stop text \/ Forall (fun w => ~ In c_lparen w) ws).
  { apply andb_false_iff in Q. destruct Q as [Q|Q]; [left; apply quoted_stop_none; exact Q|right]. apply Forall_forall. intros w W I. assert (X : existsb (fun w => existsb (fun c => c =?c c_lparen) w) ws = true); [|congruence].
    apply existsb_exists. exists w. split; [exact W|]. apply existsb_exists. exists c_lparen. split; [exact I|apply eqc_refl]. }
  assert (G : forall ns, (if noar then ns = names else grouped names ns) -> ns = if noar then names else group (length names) names).
  { intros ns H. destruct noar; [exact H|]. exact (grouped_unique _ _ H _ (group_grouped _ _ (le_n _))). }
  destruct noglob.
  - destruct (C58_names stop oneword nostrip noar true exist nocache prefix tilde glob members text ws rest GS R Q') as (ns & H & E). rewrite (E (or_introl eq_refl)). fold names in H. rewrite (G _ H). apply outcome_eqb_refl.
  - destruct (noar || _) eqn:OK; [|exact NB].
    assert (OK' : (nocache = false /\ prefix = None) \/ noar = true) by (destruct noar; [right; reflexivity|]; left; destruct nocache, prefix; try discriminate; auto).
    destruct (C58_meaning stop oneword nostrip noar exist nocache prefix tilde glob members text ws rest GS R Q' OK') as (ns & H & E1 & E2). fold names in H. rewrite <- (G _ H).
    pose proof (all_stand_spec noar exist tilde glob members ns) as A. destruct (all_stand _ ns) as [l|].
    + destruct A as (ls & F & <-). rewrite (E1 ls F). apply outcome_eqb_refl.
    + rewrite (E2 A). reflexivity.
Qed.
Print Assumptions C58_check.

Lemma outcome_eqb_eq a b : outcome_eqb a b = true -> a = b.
Proof.
  assert (L : forall x y, list_eqb x y = true -> x = y). { induction x as [|c x IH]; intros [|d y] H; try discriminate; [reflexivity|]. cbn in H. apply andb_true_iff in H. destruct H as [H K]. apply str_eqb_eq in H. rewrite H, (IH y K). reflexivity. }
  destruct a, b; cbn; intros H; try discriminate; try reflexivity. apply andb_true_iff in H. destruct H as [H K]. apply L in H. apply str_eqb_eq in K. congruence.
Qed.
(** What is wanted is a list in the sense of the theorem. *)
Lemma want_listed stop tilde glob members text l rest : want_list stop tilde glob members text = Some (Names l rest) -> listed stop tilde glob members text l rest.
Proof.
  unfold want_list, expected. destruct (read_words _ _ _ text) as [[ws e]|] eqn:R; [|discriminate]. apply read_words_reads in R. cbv zeta. destruct (quoted_stop _ _ && _); [discriminate|]. cbn [orb negb andb].
  set (names := map _ ws). pose proof (group_grouped (length names) names (le_n _)) as G. set (ns := group _ _) in *. pose proof (all_stand_spec false false tilde glob members ns) as A. destruct (all_stand _ ns) as [l0|]; [|discriminate].
  intros H. injection H as <- <-. destruct A as (ls & F & <-). assert (ID : forall l : list str, map (pre' None) l = l) by (intros; apply map_id). rewrite ID. exists ws, ns, ls. auto.
Qed.
Lemma pair_eqb_refl x : pair_eqb x x = true. Proof. unfold pair_eqb. rewrite !list_eqb_refl. reflexivity. Qed.
Lemma reads_rest stop blank t ws e : reads stop blank t ws e -> e = [] \/ exists c r, e = c :: r /\ stop c = true.
Proof. induction 1; [left; reflexivity|right; eauto|assumption]. Qed.
Theorem C58_prereqs_check : forall tilde glob members text, t_prereqs tilde glob members text = true.
Proof.
  intros tilde glob members text. unfold t_prereqs. destruct (quoted_stop _ text) eqn:Q; [reflexivity|]. apply quoted_stop_none in Q. destruct (want_prereqs tilde glob members text) as [x|] eqn:W; [|reflexivity].
  assert (E : split_prereqs tilde glob members text = Some x); [|rewrite E; apply pair_eqb_refl]. unfold want_prereqs in W.
  destruct (want_list (fun c => c =?c c_pipe) tilde glob members text) as [[l [|c r]| | |]|] eqn:L; try discriminate; apply want_listed in L.
  - injection W as <-. exact (proj1 (C58_prereqs tilde glob members text l (or_introl Q)) L).
  - destruct (want_list _ tilde glob members r) as [[l' [|? ?]| | |]|] eqn:L'; try discriminate. apply want_listed in L'. injection W as <-.
    assert (C : c = c_pipe). { destruct L as (ws & ns & ls & R & _). destruct (reads_rest _ _ _ _ _ R) as [K|(c' & r' & K & S1)]; [discriminate|]. injection K as <- <-. apply eqc_true. exact S1. } subst c.
    exact (proj2 (C58_prereqs tilde glob members text l (or_introl Q)) r l' L L').
Qed.
Print Assumptions C58_prereqs_check.
Theorem C58_wildcard_check : forall tilde glob members text, t_wildcard tilde glob members text = true.
Proof.
  intros tilde glob members text. unfold t_wildcard. destruct (read_words _ _ _ text) as [[ws [|]]|] eqn:R; [|reflexivity..]. apply read_words_reads in R. match goal with |- (if ?b then _ else _) = true => destruct b eqn:X end; [reflexivity|].
  rewrite (C58_wildcard tilde glob members text ws R).
  - assert (J : forall l, join_with_sp l = spaced l) by (induction l as [|a [|b l] IH]; [reflexivity..|]; change (a ++ c_sp :: join_with_sp (b :: l) = a ++ c_sp :: spaced (b :: l)); rewrite IH; reflexivity).
    rewrite J. apply str_eqb_refl.
  - apply Forall_forall. intros w W. assert (Y : existsb (fun c => c =?c c_lparen) w || match w with [] => false | c :: _ => c =?c "~" end = false).
    { destruct (_ || _) eqn:Y; [|reflexivity]. assert (Z : existsb (fun w => existsb (fun c => c =?c c_lparen) w || match w with [] => false | c :: _ => c =?c "~" end) ws = true); [|congruence]. apply existsb_exists. exists w. auto. }
    apply orb_false_iff in Y. destruct Y as [Y1 Y2]. split.
    + intros I. assert (Z : existsb (fun c => c =?c c_lparen) w = true); [|congruence]. apply existsb_exists. exists c_lparen. split; [exact I|apply eqc_refl].
    + intros r ->. discriminate.
Qed.
Print Assumptions C58_wildcard_check.
Example C58_prereqs_example : listed (fun c => c =?c c_pipe) c58_tilde c58_glob c58_members (s2l "a *.c | b | l.a(m*)") [s2l "a"; s2l "a.c"; s2l "b.c"] (s2l "| b | l.a(m*)") /\
  split_prereqs c58_tilde c58_glob c58_members (s2l "a *.c | b | l.a(m*)") = Some ([s2l "a"; s2l "a.c"; s2l "b.c"], [s2l "b"; s2l "|"; s2l "l.a(m1.o)"; s2l "l.a(m2.o)"]).
Proof. split; [apply want_listed|]; vm_compute; reflexivity. Qed.

(** So every sample of W_Seq must succeed. *)
Lemma samples_follow : forall l, texts_hold l = true.
Proof.
  intros l. apply forallb_forall. intros s _. unfold one_text. repeat match goal with |- context [let '(_, _) := ?x in _] => destruct x as [? ?] end. apply C58_check.
  match goal with |- good_stop (fun c => match ?k with _ => _ end) => destruct k as [|[|k]] end; (split; [reflexivity|]); intros c C; try reflexivity.
  - apply Ascii.eqb_neq. intros ->. discriminate.
  - apply orb_false_iff. split; apply Ascii.eqb_neq; intros ->; discriminate.
Qed.
Lemma pipe_good : good_stop (fun c => c =?c c_pipe). Proof. split; [reflexivity|]. intros c H. apply Ascii.eqb_neq. intros ->. discriminate. Qed.
Lemma groups_follow l : groups_hold l = true. Proof. apply forallb_forall. intros s _. apply C58_check. exact pipe_good. Qed.
Lemma dots_follow l : dots_hold l = true. Proof. apply forallb_forall. intros s _. apply C58_check. exact pipe_good. Qed.
Lemma prereqs_follow l : prereqs_hold l = true. Proof. apply forallb_forall. intros s _. apply C58_prereqs_check. Qed.
Lemma wildcards_follow l : wildcards_hold l = true. Proof. apply forallb_forall. intros s _. apply C58_wildcard_check. Qed.
