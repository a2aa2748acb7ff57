(** The enumerations of S_ImplicitCheck are those of S_Implicit. *)
From Verif Require Import Base M_Implicit S_Implicit S_ImplicitCheck.
From Coq Require Import Lia.
Open Scope list_scope.
Open Scope nat_scope.

Lemma b_in_iff n l : b_in n l = true <-> In n l.
Proof.
  unfold b_in. rewrite existsb_exists. split.
  - intros (x & H & E). apply str_eqb_eq in E. subst. exact H.
  - intros H. exists n. split; [exact H|apply str_eqb_refl].
Qed.
Lemma b_char_iff x s : b_char x s = true <-> In x s.
Proof.
  unfold b_char. rewrite existsb_exists. split.
  - intros (c & H & E). apply eqc_true in E. subst. exact H.
  - intros H. exists x. split; [exact H|apply eqc_refl].
Qed.
Lemma b_char_not x s : b_char x s = false <-> ~ In x s.
Proof. rewrite <- b_char_iff. destruct (b_char x s); split; congruence. Qed.
Lemma skip_split {A} k (n : list A) c m : skipn k n = c :: m -> n = firstn k n ++ c :: m /\ length (firstn k n) = k.
Proof.
  intros H. pose proof (firstn_skipn k n) as E. rewrite H in E. split; [symmetry; exact E|]. rewrite firstn_length_le; [reflexivity|].
  destruct (Nat.le_gt_cases k (length n)) as [L|L]; [exact L|]. rewrite skipn_all2 in H by lia. discriminate.
Qed.
Lemma skipn_app_len {A} (a b : list A) : skipn (length a) (a ++ b) = b.
Proof. induction a; [reflexivity|exact IHa]. Qed.
Lemma firstn_app_len {A} (a b : list A) : firstn (length a) (a ++ b) = a.
Proof. induction a; [reflexivity|]. cbn. f_equal. exact IHa. Qed.
Lemma str_eqb_nil s : str_eqb s [] = true <-> s = [].
Proof. split; [apply str_eqb_eq|intros ->; apply str_eqb_refl]. Qed.

Lemma b_member_iff n : b_member n = true <-> member_reference n.
Proof.
  unfold b_member. rewrite existsb_exists. split.
  - intros (k & K & H). apply in_seq in K. destruct (skipn k n) as [|c m] eqn:E; [discriminate|]. destruct (skip_split _ _ _ _ E) as [N L].
    apply andb_true_iff in H. destruct H as [H H4]. apply andb_true_iff in H. destruct H as [H H3]. apply andb_true_iff in H. destruct H as [H1 H2].
    apply eqc_true in H1. subst c. apply negb_true_iff, b_char_not in H2. apply Nat.leb_le in H3. apply eqc_true in H4.
    assert (M : m <> []) by (intros ->; cbn in H3; lia). destruct (exists_last M) as (m' & x & ->). rewrite last_last in H4. subst x.
    exists (firstn k n), m'. split; [exact N|]. split; [intros Z; rewrite Z in L; cbn in L; lia|]. split; [exact H2|]. intros ->. cbn in H3. lia.
  - intros (a & m & -> & A & P & M). exists (length a). split.
    + apply in_seq. rewrite app_length. cbn [length]. destruct a; [congruence|]. cbn [length]. lia.
    + rewrite skipn_app_len, firstn_app_len, eqc_refl. cbn [andb]. apply b_char_not in P. rewrite P. cbn [negb andb]. rewrite last_last, eqc_refl, app_length.
      destruct m; [congruence|]. cbn [length]. replace (S (length m) + 1) with (S (S (length m))) by lia. reflexivity.
Qed.
Lemma removelast_app' {A} (a b : list A) : b <> [] -> removelast (a ++ b) = a ++ removelast b.
Proof. intros H. apply removelast_app. exact H. Qed.
Lemma parts_iff (P : Prop) w n d b : (w = true <-> P) -> In (d, b) (parts_list w n) <-> parts P n d b.
Proof.
  intros W. unfold parts_list. destruct w; cbn [orb].
  - split; [intros [H|[]]; injection H as <- <-; apply p_whole; tauto|]. intros H. inversion H; subst; [left; reflexivity|exfalso; tauto|exfalso; tauto].
  - assert (NP : ~ P) by (intros Z; apply W in Z; discriminate). destruct (b_char c_slash (removelast n)) eqn:E; cbn [negb].
    + apply b_char_iff in E. rewrite in_flat_map. split.
      * intros (k & _ & H). destruct (skipn k n) as [|c m] eqn:S1; [destruct H|]. destruct (skip_split _ _ _ _ S1) as [N _].
        destruct (c =?c c_slash) eqn:C; [|destruct H]. apply eqc_true in C. subst c. cbn [andb] in H. destruct (str_eqb m []) eqn:M; [destruct H|]. cbn [negb andb] in H.
        destruct (b_char c_slash (removelast m)) eqn:B; [destruct H|]. destruct H as [H|[]]. injection H as <- <-. rewrite N at 1. apply p_dir; [exact NP|intros ->; discriminate|apply b_char_not; exact B].
      * intros H. inversion H as [n' H1|n' H1 H2|d' b' H1 H2 H3]; subst; try tauto. exists (length d'). split; [apply in_seq; rewrite app_length; cbn [length]; lia|].
        rewrite skipn_app_len, firstn_app_len, eqc_refl. cbn [andb]. apply b_char_not in H3. rewrite H3. destruct (str_eqb b []) eqn:M; [apply str_eqb_nil in M; congruence|]. left. reflexivity.
    + apply b_char_not in E. split; [intros [H|[]]; injection H as <- <-; apply p_none; assumption|]. intros H. inversion H as [n' H1|n' H1 H2|d' b' H1 H2 H3]; subst; try tauto; [left; reflexivity|].
      exfalso. apply E. rewrite removelast_app' by discriminate. apply in_or_app. right. destruct b; [congruence|]. left. reflexivity.
Qed.
Lemma pattern_iff t pre suf : In (pre, suf) (pattern_list t) <-> pattern t pre suf.
Proof.
  destruct t as [x k]. unfold pattern_list, pattern. cbn [fst snd]. split.
  - destruct (skipn k x) as [|c m] eqn:E; [intros []|]. destruct (skip_split _ _ _ _ E) as [N L]. destruct (c =?c c_percent) eqn:C; [|intros []]. apply eqc_true in C. subst c.
    intros [H|[]]. injection H as <- <-. auto.
  - intros [-> ->]. rewrite skipn_app_len, firstn_app_len, eqc_refl. left. reflexivity.
Qed.
Lemma between_iff pre suf n st : In st (between pre suf n) <-> n = pre ++ st ++ suf.
Proof.
  unfold between. split.
  - destruct (str_eqb _ n) eqn:E; [|intros []]. intros [<-|[]]. apply str_eqb_eq in E. symmetry. exact E.
  - intros ->. rewrite !app_length, skipn_app_len. replace (length pre + (length st + length suf) - length pre - length suf) with (length st) by lia. rewrite firstn_app_len, str_eqb_refl. left. reflexivity.
Qed.
Lemma whole_iff archive name : archive || b_member name = true <-> archive = true \/ member_reference name.
Proof. rewrite orb_true_iff, b_member_iff. tauto. Qed.
Lemma fits_iff archive name t p st : In (p, st) (fits_list archive name t) <-> fits archive name t p st.
Proof.
  unfold fits_list. rewrite in_flat_map. split.
  - intros ([dir base] & P & H). apply (parts_iff _ _ _ _ _ (whole_iff archive name)) in P. apply in_flat_map in H. destruct H as ([pre suf] & Q & H). apply pattern_iff in Q.
    destruct (str_eqb dir []) eqn:D; cbn [negb andb] in H.
    + apply str_eqb_nil in D. apply in_map_iff in H. destruct H as (st' & H1 & H2). injection H1 as <- <-. apply filter_In in H2. destruct H2 as [H2 H3]. apply between_iff in H2.
      apply (f_whole _ _ _ dir base pre suf st' P Q (or_introl D) H2). intros ->. discriminate.
    + destruct (b_char c_slash (fst t)) eqn:B; cbn [negb] in H.
      * apply b_char_iff in B. apply in_map_iff in H. destruct H as (st' & H1 & H2). injection H1 as <- <-. apply filter_In in H2. destruct H2 as [H2 H3]. apply between_iff in H2.
        apply (f_whole _ _ _ dir base pre suf st' P Q (or_intror B) H2). intros ->. discriminate.
      * apply b_char_not in B. apply in_map_iff in H. destruct H as (st' & H1 & H2). injection H1 as <- <-. apply between_iff in H2.
        apply (f_base _ _ _ dir base pre suf st' P); [intros ->; discriminate|exact Q|exact B|exact H2].
  - intros H. inversion H as [dir base pre suf st' P D Q B E|dir base pre suf st' P Q D E N]; subst.
    + exists (p, pre ++ st ++ suf). split; [apply (parts_iff _ _ _ _ _ (whole_iff archive name)); exact P|]. apply in_flat_map. exists (pre, suf). split; [apply pattern_iff; exact Q|].
      destruct (str_eqb p []) eqn:D'; [apply str_eqb_nil in D'; congruence|]. apply b_char_not in B. rewrite B. cbn [negb andb]. apply in_map. apply between_iff. reflexivity.
    + exists (dir, base). split; [apply (parts_iff _ _ _ _ _ (whole_iff archive (pre ++ st ++ suf))); exact P|]. apply in_flat_map. exists (pre, suf). split; [apply pattern_iff; exact Q|].
      assert (X : negb (str_eqb dir []) && negb (b_char c_slash (fst t)) = false).
      { destruct D as [-> |D]; [reflexivity|]. apply b_char_iff in D. rewrite D. apply andb_false_r. }
      rewrite X. apply in_map. apply filter_In. split; [apply between_iff; reflexivity|]. destruct (str_eqb st []) eqn:Z; [apply str_eqb_nil in Z; congruence|reflexivity].
Qed.
Lemma anything_iff t : b_anything t = true <-> anything t.
Proof. unfold b_anything, anything. split; [apply str_eqb_eq|intros ->; apply str_eqb_refl]. Qed.

(** Prerequisites. *)
Lemma b_instance_iff p s n x : instance p s n x <-> x = b_instance p s [] n.
Proof.
  assert (G : forall n done, (~ In c_percent n -> b_instance p s done n = done ++ n) /\ (forall a b, n = a ++ c_percent :: b -> ~ In c_percent a -> b_instance p s done n = p ++ (done ++ a) ++ s ++ b)).
  { clear. induction n as [|c n IH]; intros done; (split; [intros H|intros a b E H]).
    - cbn. rewrite app_nil_r. reflexivity.
    - destruct a; discriminate.
    - cbn [b_instance]. destruct (c =?c c_percent) eqn:C; [apply eqc_true in C; subst; exfalso; apply H; left; reflexivity|].
      destruct (IH (done ++ [c])) as [IH1 _]. rewrite IH1, <- app_assoc; [reflexivity|]. intros Z. apply H. right. exact Z.
    - cbn [b_instance]. destruct a as [|a0 a]; injection E as -> ->; [rewrite eqc_refl, app_nil_r; reflexivity|].
      destruct (a0 =?c c_percent) eqn:C; [apply eqc_true in C; subst; exfalso; apply H; left; reflexivity|].
      destruct (IH (done ++ [a0])) as [_ IH2]. rewrite (IH2 a b eq_refl), <- !app_assoc; [reflexivity|]. intros Z. apply H. right. exact Z. }
  split.
  - intros H. destruct H as [n H|a b H].
    + rewrite (proj1 (G n []) H). reflexivity.
    + rewrite (proj2 (G _ []) a b eq_refl H). reflexivity.
  - intros ->. destruct (in_dec ascii_dec c_percent n) as [I|I].
    + assert (X : exists a b, n = a ++ c_percent :: b /\ ~ In c_percent a).
      { clear -I. induction n as [|c n IH]; [destruct I|]. destruct (ascii_dec c c_percent) as [->|D]; [exists [], n; split; [reflexivity|intros []]|].
        destruct I as [I|I]; [congruence|]. destruct (IH I) as (a & b & -> & N). exists (c :: a), b. split; [reflexivity|]. intros [Z|Z]; [congruence|exact (N Z)]. }
      destruct X as (a & b & -> & N). rewrite (proj2 (G _ []) a b eq_refl N). apply i_stem. exact N.
    + rewrite (proj1 (G n []) I). apply i_plain. exact I.
Qed.

Section Link.
  Variable rules : list rule.
  Lemma candidates_iff U re ar n i ti r p s t : In (mkent i ti r p s, t) (all_candidates rules U re ar n) <-> candidate rules U re ar n i ti r t p s.
  Proof.
    unfold all_candidates, candidate. rewrite in_flat_map. split.
    - intros (i' & I & H). destruct (nth_error rules i') as [r'|] eqn:R; [|destruct H]. destruct (existsb (Nat.eqb i') U) eqn:E; [destruct H|].
      assert (X : In (mkent i ti r p s, t) (rule_candidates re ar n i' r') /\ (r_deps r' = [] \/ r_cmds r' <> None)).
      { destruct (r_deps r') as [|d ds]; [split; [destruct (r_cmds r'); exact H|left; reflexivity]|]. destruct (r_cmds r'); [split; [exact H|right; discriminate]|destruct H]. }
      destruct X as [X C]. unfold rule_candidates in X. apply in_flat_map in X. destruct X as (ti' & T & X). destruct (nth_error (r_targets r') ti') as [t'|] eqn:Q; [|destruct X].
      destruct (re && b_anything t' && negb (r_terminal r')) eqn:A; [destruct X|]. apply in_map_iff in X. destruct X as ([p' s'] & X & F). cbn [fst snd] in X. injection X as <- <- <- <- <- <-.
      split; [exact R|]. split; [intros Z; assert (existsb (Nat.eqb i') U = true) by (apply existsb_exists; exists i'; split; [exact Z|apply Nat.eqb_refl]); congruence|].
      split; [exact C|]. split; [exact Q|]. split; [|apply fits_iff; exact F]. intros -> AN. apply anything_iff in AN. rewrite AN in A. cbn in A. destruct (r_terminal r'); [reflexivity|discriminate].
    - intros (R & NU & C & T & A & F). exists i. split; [apply in_seq; split; [lia|]; apply nth_error_Some; congruence|]. rewrite R.
      destruct (existsb (Nat.eqb i) U) eqn:E; [apply existsb_exists in E; destruct E as (x & E1 & E2); apply Nat.eqb_eq in E2; subst; tauto|].
      assert (X : In (mkent i ti r p s, t) (rule_candidates re ar n i r)).
      { unfold rule_candidates. apply in_flat_map. exists ti. split; [apply in_seq; split; [lia|]; apply nth_error_Some; congruence|]. rewrite T.
        assert (Z : re && b_anything t && negb (r_terminal r) = false).
        { destruct re; [|reflexivity]. destruct (b_anything t) eqn:AN; [|reflexivity]. apply anything_iff in AN. rewrite (A eq_refl AN). reflexivity. }
        rewrite Z. apply in_map_iff. exists (p, s). split; [reflexivity|]. apply fits_iff. exact F. }
      destruct (r_deps r); [destruct (r_cmds r); exact X|]. destruct (r_cmds r); [exact X|]. destruct C as [C|C]; congruence.
  Qed.
  Lemma specific_iff U re ar n : b_specific rules U re ar n = true <-> specific rules U re ar n.
  Proof.
    unfold b_specific, specific. rewrite existsb_exists. split.
    - intros ([e t] & H & N). destruct e as [i ti r p s]. apply candidates_iff in H. exists i, ti, r, t, p, s. split; [exact H|]. cbn [snd] in N. apply negb_true_iff in N. rewrite <- anything_iff, N. discriminate.
    - intros (i & ti & r & t & p & s & H & N). exists (mkent i ti r p s, t). split; [apply candidates_iff; exact H|]. cbn [snd]. apply negb_true_iff. destruct (b_anything t) eqn:E; [apply anything_iff in E; tauto|reflexivity].
  Qed.
  Lemma eligible_iff U re ar n i ti r p s : In (mkent i ti r p s) (all_eligible rules U re ar n) <-> eligible rules U re ar n i ti r p s.
  Proof.
    unfold all_eligible, eligible. cbv zeta. rewrite filter_In, in_map_iff. cbn [e_r].
    assert (X : (exists x, fst x = mkent i ti r p s /\ In x (all_candidates rules U re ar n)) <-> exists t, candidate rules U re ar n i ti r t p s).
    { split; [intros ([e t] & E & H); cbn [fst] in E; subst; exists t; apply candidates_iff; exact H|]. intros (t & H). exists (mkent i ti r p s, t). split; [reflexivity|]. apply candidates_iff. exact H. }
    rewrite X. rewrite andb_true_iff, !orb_true_iff, !negb_true_iff.
    assert (C : (match r_cmds r with Some _ => true | None => false end = true) <-> r_cmds r <> None) by (destruct (r_cmds r); split; congruence). rewrite C.
    assert (A : existsb b_anything (r_targets r) = false <-> forall t, In t (r_targets r) -> ~ anything t).
    { split.
      - intros E t T Z. apply anything_iff in Z. assert (existsb b_anything (r_targets r) = true) by (apply existsb_exists; eauto). congruence.
      - intros H. destruct (existsb b_anything (r_targets r)) eqn:E; [|reflexivity]. apply existsb_exists in E. destruct E as (t & T & Z). apply anything_iff in Z. destruct (H t T Z). }
    rewrite A. assert (S1 : b_specific rules U re ar n = false <-> ~ specific rules U re ar n) by (rewrite <- specific_iff; destruct (b_specific rules U re ar n); split; congruence).
    rewrite S1. destruct (b_specific rules U re ar n) eqn:SP.
    - apply specific_iff in SP. tauto.
    - assert (NS : ~ specific rules U re ar n) by (rewrite <- specific_iff; congruence). tauto.
  Qed.
End Link.
  Lemma had_iff' lookup exists_p vpath files expl n : b_had lookup exists_p vpath files expl n = true <-> had lookup exists_p vpath files expl n.
  Proof. unfold b_had, had. rewrite !orb_true_iff, !b_in_iff. tauto. Qed.
Section Needs.
  Variable parse : str -> list str.
  Lemma needs_iff i ti r p s n : needs parse r p s n <-> exists o, In (n, o) (need_list parse (mkent i ti r p s)).
  Proof.
    unfold needs, need_list. cbn [e_r e_p e_s]. split.
    - intros (d & x & D & I & N). apply b_instance_iff in I. subst x. exists (pd_order d). apply in_flat_map. exists d. split; [exact D|]. apply in_map_iff. exists n. auto.
    - intros (o & H). apply in_flat_map in H. destruct H as (d & D & H). apply in_map_iff in H. destruct H as (m & E & H). injection E as -> <-. exists d. eexists. split; [exact D|]. split; [apply b_instance_iff; reflexivity|exact H].
  Qed.
  Lemma needed_eq i ti r p s l : needed parse p s (r_deps r) l -> l = need_list parse (mkent i ti r p s).
  Proof.
    unfold need_list. cbn [e_r e_p e_s]. generalize (r_deps r). intros ds H. induction H as [|d ds x l I H IH]; [reflexivity|]. cbn [flat_map]. apply b_instance_iff in I. subst x. rewrite IH. reflexivity.
  Qed.
End Needs.
Section Tests.
  Variable rules : list rule.
  Variable path_max : nat.
  Variable parse : str -> list str.
  Lemma direct_iff (A I : str -> Prop) a im U re ar n i ti r p s : (forall x, a x = true <-> A x) -> (forall x, im x = true <-> I x) -> eligible rules U re ar n i ti r p s ->
    (b_direct path_max parse a im (mkent i ti r p s) = true <-> direct rules path_max parse A I U re ar n i ti r p s).
  Proof.
    intros HA HI EL. unfold b_direct, direct. rewrite andb_true_iff, forallb_forall. unfold e_len. cbn [e_p e_s]. rewrite Nat.leb_le. split.
    - intros [L H]. split; [exact EL|]. split; [exact L|]. intros m N. apply (needs_iff parse i ti) in N. destruct N as (o & N). specialize (H _ N). cbn [fst] in H. apply andb_true_iff in H. destruct H as [H1 H2].
      apply negb_true_iff in H1. rewrite <- HI, <- HA, H1. split; [discriminate|exact H2].
    - intros (_ & L & H). split; [exact L|]. intros [m o] N. cbn [fst]. destruct (H m) as [H1 H2]; [apply (needs_iff parse i ti); exists o; exact N|]. apply andb_true_iff. rewrite HA. split; [|exact H2].
      apply negb_true_iff. destruct (im m) eqn:E; [apply HI in E; tauto|reflexivity].
  Qed.
  Lemma sooner_iff a b : b_sooner a b = true <-> sooner (e_len a) (e_i a) (e_ti a) (e_len b) (e_i b) (e_ti b).
  Proof. unfold b_sooner, sooner. rewrite !orb_true_iff, !andb_true_iff, !orb_true_iff, !andb_true_iff, !Nat.ltb_lt, !Nat.eqb_eq. tauto. Qed.

  Lemma strs_eqb_refl l : strs_eqb l l = true.
  Proof. induction l; [reflexivity|]. cbn. rewrite str_eqb_refl. exact IHl. Qed.
  Lemma marks_eqb_refl l : marks_eqb l l = true.
  Proof. induction l as [|[x o] l IH]; [reflexivity|]. cbn. rewrite str_eqb_refl, Bool.eqb_reflx. exact IH. Qed.
  Lemma pattern_list_one t pre suf : pattern t pre suf -> pattern_list t = [(pre, suf)].
  Proof. destruct t as [x k]. unfold pattern, pattern_list. cbn [fst snd]. intros [-> ->]. rewrite skipn_app_len, firstn_app_len, eqc_refl. reflexivity. Qed.
  Lemma others_eq stem ti k ts l : others stem ti k ts l -> l = other_list stem ti k ts.
  Proof.
    intros H. induction H as [k|t ts l H IH|k t pre suf ts l N P H IH]; [reflexivity| |]; cbn [other_list].
    - rewrite Nat.eqb_refl. exact IH.
    - destruct (k =? ti) eqn:E; [apply Nat.eqb_eq in E; congruence|]. rewrite (pattern_list_one _ _ _ P), IH. reflexivity.
  Qed.
  Lemma sound_test (A : list str -> str -> Prop) a : (forall e x, A e x -> a e x = true) ->
    forall p U re ar n e, sound rules path_max parse A U re ar n e p -> b_sound rules path_max parse a U re ar n e p = true.
  Proof.
    intros HA. fix F 1. intros [i ti stem deps also] U re ar n ex S1. inversion S1 as [i' ti' r prefix st deps' also' EL L O ND AV SUB]; subst. cbn [b_sound]. apply existsb_exists.
    exists (mkent i ti r prefix st). split; [apply eligible_iff; exact EL|]. unfold e_len. cbn [e_i e_ti e_p e_s e_r]. rewrite !Nat.eqb_refl, str_eqb_refl. apply Nat.leb_le in L. rewrite L.
    rewrite <- (others_eq _ _ _ _ _ O), strs_eqb_refl. cbn [andb]. destruct (r_deps r) as [|d0 ds0] eqn:D; [reflexivity|]. rewrite <- D in *. assert (NE : r_deps r <> []) by congruence.
    specialize (ND NE). specialize (AV NE). specialize (SUB NE). rewrite (needed_eq parse i ti _ _ _ _ ND), marks_eqb_refl. cbn [andb]. clear S1 ND EL O.
    induction deps as [|[[m o] [q|]] l IH]; [reflexivity| |].
    - destruct (SUB m o q (or_introl eq_refl)) as [T S2]. apply andb_true_iff. split; [apply andb_true_iff; split; [rewrite T; reflexivity|exact (F q _ _ _ _ _ S2)]|]. apply IH; intros; [apply (AV n0 o0)|apply (SUB n0 o0)]; right; assumption.
    - rewrite (HA _ _ (AV m o (or_introl eq_refl))). cbn [andb]. apply IH; intros; [apply (AV n0 o0)|apply (SUB n0 o0)]; right; assumption.
  Qed.
  Lemma mention_list_iff : forall p n, In n (mention_list p) -> mentions p n.
  Proof.
    fix F 1. intros [i ti stem deps also] n H. cbn [mention_list] in H. apply in_app_or in H. destruct H as [H|H]; [|apply me_also; exact H].
    assert (X : (exists o x, In (n, o, x) deps) \/ exists m o q, In (m, o, Some q) deps /\ mentions q n).
    { induction deps as [|[[m o] [q|]] l IH]; [destruct H| |].
      - destruct H as [H|H]; [left; exists o, (Some q); left; subst; reflexivity|]. apply in_app_or in H. destruct H as [H|H]; [right; exists m, o, q; split; [left; reflexivity|apply F; exact H]|].
        destruct (IH H) as [(o' & x & K)|(m' & o' & q' & K & M)]; [left; exists o', x; right; exact K|right; exists m', o', q'; split; [right; exact K|exact M]].
      - destruct H as [H|H]; [left; exists o, None; left; subst; reflexivity|].
        destruct (IH H) as [(o' & x & K)|(m' & o' & q' & K & M)]; [left; exists o', x; right; exact K|right; exists m', o', q'; split; [right; exact K|exact M]]. }
    destruct X as [(o & x & K)|(m & o & q & K & M)]; [exact (me_dep _ _ _ _ _ _ _ _ K)|exact (me_sub _ _ _ _ _ _ _ _ _ K M)].
  Qed.
  Lemma makeable_test avail : forall depth re ar n, b_makeable rules path_max parse depth avail re ar n = true -> makeable rules path_max parse (fun x => avail x = true) re ar n.
  Proof.
    induction depth as [|depth IH]; intros re ar n H; cbn [b_makeable] in H; apply existsb_exists in H; destruct H as ([i ti r p s] & EL & H); apply eligible_iff in EL; apply orb_true_iff in H;
      (destruct H as [H|H]; [apply (mk_direct _ _ _ _ _ _ _ i ti r p s); apply (direct_iff (fun x => avail x = true) (fun _ => False) avail (fun _ => false)); [reflexivity|intros x; split; [discriminate|intros []]|exact EL|exact H]|]).
    - rewrite andb_false_r in H. discriminate.
    - apply andb_true_iff in H. destruct H as [H SUB]. apply andb_true_iff in H. destruct H as [T L]. cbn [e_r] in T. apply negb_true_iff in T. apply Nat.leb_le in L.
      apply (mk_chain _ _ _ _ _ _ _ i ti r p s EL T L). intros m N. apply (needs_iff parse i ti) in N. destruct N as (o & N). rewrite forallb_forall in SUB. specialize (SUB _ N). cbn [fst] in SUB.
      apply orb_true_iff in SUB. destruct SUB as [K|K]; [left; exact K|right; apply IH; exact K].
  Qed.
End Tests.
