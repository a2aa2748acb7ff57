From Verif Require Import Base M_Implicit S_Implicit.

(** ** Names *)

Lemma from_paren_some : forall s m, from_paren s = Some m -> exists a, s = a ++ c_lparen :: m /\ ~ In c_lparen a.
Proof.
  induction s as [|c s IH]; intros m H; [discriminate|]. cbn [from_paren] in H. destruct (c =?c c_lparen) eqn:E.
  - apply Ascii.eqb_eq in E. injection H as <-. subst c. exists []. split; [reflexivity|intros []].
  - destruct (IH m H) as (a & -> & N). exists (c :: a). split; [reflexivity|]. intros [K|K]; [|exact (N K)].
    subst c. rewrite Ascii.eqb_refl in E. discriminate.
Qed.
Lemma from_paren_app : forall a m, ~ In c_lparen a -> from_paren (a ++ c_lparen :: m) = Some m.
Proof.
  induction a as [|c a IH]; intros m N; cbn [app from_paren]; [rewrite Ascii.eqb_refl; reflexivity|].
  destruct (c =?c c_lparen) eqn:E; [apply Ascii.eqb_eq in E; exfalso; apply N; left; exact E|]. apply IH. intros K. apply N. right. exact K.
Qed.
Lemma ar_name_iff : forall n, ar_name n = true <-> member_reference n.
Proof.
  intros n. split.
  - intros H. destruct n as [|c n]; [discriminate|]. cbn [ar_name] in H. destruct (c =?c c_lparen) eqn:E; [discriminate|].
    destruct (from_paren n) as [m|] eqn:F; [|discriminate]. apply andb_true_iff in H. destruct H as [L R]. apply Nat.leb_le in L. apply Ascii.eqb_eq in R.
    destruct (from_paren_some n m F) as (a & -> & N).
    destruct (exists_last (l := m)) as (m' & x & ->); [intros ->; cbn in L; lia|]. rewrite last_last in R. subst x.
    exists (c :: a), m'. split; [reflexivity|]. split; [discriminate|]. split.
    + intros [K|K]; [subst c; rewrite Ascii.eqb_refl in E; discriminate|exact (N K)].
    + intros ->. cbn in L. lia.
  - intros (a & m & -> & A & N & M). destruct a as [|c a]; [congruence|]. cbn [app ar_name].
    destruct (c =?c c_lparen) eqn:E; [apply Ascii.eqb_eq in E; exfalso; apply N; left; exact E|].
    rewrite from_paren_app by (intros K; apply N; right; exact K). apply andb_true_iff. split; [|rewrite last_last; apply Ascii.eqb_refl].
    apply Nat.leb_le. rewrite app_length. destruct m; [congruence|]. cbn. lia.
Qed.

Lemma path_length_spec : forall n,
  (path_length n = 0 /\ ~ In c_slash (removelast n)) \/
  (exists d b, n = d ++ c_slash :: b /\ b <> [] /\ ~ In c_slash (removelast b) /\ path_length n = S (length d)).
Proof.
  induction n as [|c n IH]; [left; split; [reflexivity|intros []]|]. cbn [path_length]. destruct IH as [[E N]|(d & b & -> & B & N & E)].
  - rewrite E. destruct n as [|x n]; [left; split; [reflexivity|intros []]|]. destruct (c =?c c_slash) eqn:C.
    + apply Ascii.eqb_eq in C. subst c. right. exists [], (x :: n). split; [reflexivity|]. split; [discriminate|]. split; [exact N|reflexivity].
    + left. split; [reflexivity|]. change (removelast (c :: x :: n)) with (c :: removelast (x :: n)). intros [K|K]; [|exact (N K)].
      subst c. rewrite Ascii.eqb_refl in C. discriminate.
  - rewrite E. right. exists (c :: d), b. split; [reflexivity|]. split; [exact B|]. split; [exact N|reflexivity].
Qed.

Definition whole (archive : bool) (name : str) : Prop := archive = true \/ member_reference name.
Lemma whole_iff : forall archive name, archive || ar_name name = true <-> whole archive name.
Proof. intros archive name. rewrite orb_true_iff, ar_name_iff. reflexivity. Qed.

Lemma pathlen_parts : forall archive name,
  parts (whole archive name) name (firstn (pathlen archive name) name) (skipn (pathlen archive name) name).
Proof.
  intros archive name. unfold pathlen. destruct (archive || ar_name name) eqn:W.
  - apply whole_iff in W. cbn [firstn skipn]. apply p_whole. exact W.
  - assert (W' : ~ whole archive name) by (rewrite <- whole_iff, W; discriminate).
    destruct (path_length_spec name) as [[E N]|(d & b & E & B & N & L)].
    + rewrite E. cbn [firstn skipn]. apply p_none; assumption.
    + rewrite L. assert (E1 : firstn (S (length d)) name = d ++ [c_slash]).
      { rewrite E. replace (d ++ c_slash :: b) with ((d ++ [c_slash]) ++ b) by (rewrite <- app_assoc; reflexivity).
        rewrite firstn_app, app_length. cbn [length]. rewrite firstn_all2 by (rewrite app_length; cbn; lia). replace (S (length d) - (length d + 1)) with 0 by lia.
        cbn [firstn]. apply app_nil_r. }
      assert (E2 : skipn (S (length d)) name = b).
      { rewrite E. replace (d ++ c_slash :: b) with ((d ++ [c_slash]) ++ b) by (rewrite <- app_assoc; reflexivity).
        rewrite skipn_app, app_length. cbn [length]. rewrite skipn_all2 by (rewrite app_length; cbn; lia). replace (S (length d) - (length d + 1)) with 0 by lia. reflexivity. }
      rewrite E1, E2. rewrite E at 2. apply p_dir; assumption.
Qed.

Lemma last_slash_unique : forall d b d' b', d ++ c_slash :: b = d' ++ c_slash :: b' -> b <> [] -> b' <> [] ->
  ~ In c_slash (removelast b) -> ~ In c_slash (removelast b') -> d = d' /\ b = b'.
Proof.
  assert (W : forall d b d' b', length d <= length d' -> d ++ c_slash :: b = d' ++ c_slash :: b' -> b' <> [] -> ~ In c_slash (removelast b) -> d = d' /\ b = b').
  { induction d as [|c d IH]; intros b d' b' L E B N.
    - destruct d' as [|c' d']; [injection E as ->; auto|]. exfalso. cbn [app] in E. injection E as <- ->. apply N.
      rewrite removelast_app by discriminate. apply in_or_app. right. destruct b'; [congruence|]. left. reflexivity.
    - destruct d' as [|c' d']; [cbn in L; lia|]. cbn [app] in E. injection E as <- E. destruct (IH b d' b') as [-> ->]; [cbn in L; lia|exact E|exact B|exact N|]. auto. }
  intros d b d' b' E B B' N N'. destruct (le_lt_dec (length d) (length d')) as [H|H].
  - exact (W d b d' b' H E B' N).
  - destruct (W d' b' d b) as [-> ->]; [lia|symmetry; exact E|exact B|exact N'|]. auto.
Qed.
Lemma in_removelast_app : forall (d b : str), b <> [] -> In c_slash (removelast (d ++ c_slash :: b)).
Proof.
  intros d b B. rewrite removelast_app by discriminate. apply in_or_app. right. destruct b; [congruence|]. left. reflexivity.
Qed.

Lemma parts_unique : forall w n d b d' b', parts w n d b -> parts w n d' b' -> d = d' /\ b = b'.
Proof.
  intros w n d b d' b' H H'. inversion H as [n0 W E1 E2 E3|n0 W N E1 E2 E3|d0 b0 W B N E1 E2 E3]; subst;
  inversion H' as [n1 W1 F1 F2 F3|n1 W1 N1 F1 F2 F3|d1 b1 W1 B1 N1 F1 F2 F3]; subst; try tauto; auto.
  - exfalso. apply N. apply in_removelast_app. exact B1.
  - exfalso. apply N1. apply in_removelast_app. exact B.
  - destruct (last_slash_unique _ _ _ _ F1 B1 B N1 N) as [-> ->]. auto.
Qed.
Lemma parts_pathlen : forall archive name dir base, parts (whole archive name) name dir base <->
  dir = firstn (pathlen archive name) name /\ base = skipn (pathlen archive name) name.
Proof.
  intros archive name dir base. split.
  - intros H. exact (parts_unique _ _ _ _ _ _ H (pathlen_parts archive name)).
  - intros [-> ->]. apply pathlen_parts.
Qed.
Lemma pathlen_le : forall archive name, pathlen archive name <= length name.
Proof.
  intros archive name. unfold pathlen. destruct (archive || ar_name name); [lia|]. destruct (path_length_spec name) as [[E N]|(d & b & E & B & N & L)]; [lia|].
  rewrite L, E, app_length. cbn. lia.
Qed.

(** ** Patterns *)

Lemma skipn_skipn : forall A x y (l : list A), skipn x (skipn y l) = skipn (x + y) l.
Proof. intros A x y. induction y as [|y IH]; intros l; [rewrite Nat.add_0_r; reflexivity|]. rewrite Nat.add_succ_r. destruct l; [apply skipn_nil|]. apply IH. Qed.

Lemma has_slash_iff : forall s, has_slash s = true <-> In c_slash s.
Proof.
  intros s. unfold has_slash. rewrite existsb_exists. split.
  - intros (x & H & E). apply Ascii.eqb_eq in E. subst x. exact H.
  - intros H. exists c_slash. split; [exact H|apply Ascii.eqb_refl].
Qed.

Definition checked (pl : nat) (t : str * nat) : bool := (0 <? pl) && negb (has_slash (fst t)).

Lemma match_target_iff : forall name pl t pre suf o sl ck, pattern t pre suf -> pl <= length name ->
  (match_target name pl t = Some (o, sl, ck) <->
   ck = checked pl t /\ exists st, (if ck then skipn pl name else name) = pre ++ st ++ suf /\ o = (if ck then length pre + pl else length pre) /\ sl = length st /\ (ck = true \/ st <> [])).
Proof.
  intros name pl [text pct] pre suf o sl ck [E1 E2] PL. cbn [fst snd] in E1, E2. subst text pct. unfold match_target, checked. cbn [fst].
  set (text := pre ++ c_percent :: suf). assert (LT : length text = length pre + S (length suf)) by (unfold text; rewrite app_length; reflexivity).
  assert (F1 : firstn (length pre) text = pre) by (unfold text; rewrite firstn_app, firstn_all, Nat.sub_diag; apply app_nil_r).
  assert (F2 : skipn (S (length pre)) text = suf).
  { unfold text. rewrite skipn_app, skipn_all2 by lia. replace (S (length pre) - length pre) with 1 by lia. reflexivity. }
  rewrite F1, F2. set (k := (0 <? pl) && negb (has_slash text)).
  set (start := if k then skipn pl name else name).
  assert (LS : length start = if k then length name - pl else length name) by (unfold start; destruct k; [apply skipn_length|reflexivity]).
  assert (SK : forall m, skipn ((if k then length pre + pl else length pre) + m) name = skipn (length pre + m) start).
  { intros m. unfold start. destruct k; [|reflexivity]. rewrite skipn_skipn. f_equal. lia. }
  rewrite SK. split.
  - destruct (length name <? length text) eqn:L1; [discriminate|]. apply Nat.ltb_ge in L1.
    destruct (k && (length name - length text + 1 <? pl)) eqn:L2; [discriminate|].
    destruct (str_eqb pre (firstn (length pre) start)) eqn:C1; [|discriminate]. cbn [negb].
    match goal with |- context [str_eqb suf (skipn ?m start)] => destruct (str_eqb suf (skipn m start)) eqn:C2; [|discriminate] end.
    apply str_eqb_eq in C1, C2. intros H. injection H as <- <- <-. split; [reflexivity|].
    set (sl := if k then length name - length text + 1 - pl else length name - length text + 1) in *.
    assert (LL : length start = length pre + sl + length suf).
    { rewrite LS. unfold sl. destruct k; cbn [andb] in L2; [apply Nat.ltb_ge in L2|]; lia. }
    exists (firstn sl (skipn (length pre) start)). split; [|split; [reflexivity|]; split].
    + fold start. rewrite <- (firstn_skipn (length pre) start) at 1. rewrite <- C1. f_equal.
      rewrite <- (firstn_skipn sl (skipn (length pre) start)) at 1. f_equal. rewrite skipn_skipn. rewrite C2. f_equal. lia.
    + rewrite firstn_length, skipn_length. lia.
    + destruct k eqn:K; [left; reflexivity|right]. intros Z. apply (f_equal (@length ascii)) in Z. rewrite firstn_length, skipn_length in Z. unfold sl in *. cbn in Z. lia.
  - intros (-> & st & E & -> & -> & NE). fold start in E. assert (LL : length start = length pre + length st + length suf).
    { rewrite E, !app_length. lia. }
    assert (KL : (if k then length name - pl else length name) = length pre + length st + length suf) by (rewrite <- LS; exact LL).
    assert (NL : length text <= length name \/ length name < length text) by lia.
    replace (length name <? length text) with false by (symmetry; apply Nat.ltb_ge; destruct k eqn:K; [|destruct NE as [NE|NE]; [discriminate|destruct st; [congruence|cbn in KL; lia]]]; unfold k in K; apply andb_true_iff in K; destruct K as [K _]; apply Nat.ltb_lt in K; lia).
    replace (k && (length name - length text + 1 <? pl)) with false.
    2:{ symmetry. destruct k eqn:K; [|reflexivity]. unfold k in K. apply andb_true_iff in K. destruct K as [K _]. apply Nat.ltb_lt in K. cbn [andb]. apply Nat.ltb_ge. lia. }
    replace (str_eqb pre (firstn (length pre) start)) with true.
    2:{ symmetry. apply str_eqb_eq. rewrite E, firstn_app, firstn_all, Nat.sub_diag. symmetry. apply app_nil_r. }
    cbn [negb]. replace (if k then length name - length text + 1 - pl else length name - length text + 1) with (length st) by (destruct k eqn:K; [unfold k in K; apply andb_true_iff in K; destruct K as [K _]; apply Nat.ltb_lt in K; lia|destruct NE as [NE|NE]; [discriminate|destruct st; [congruence|cbn [length] in *; lia]]]).
    replace (skipn (length pre + length st) start) with suf.
    2:{ rewrite E, app_assoc, skipn_app, app_length, Nat.sub_diag. rewrite skipn_all2 by (rewrite app_length; lia). reflexivity. }
    rewrite (proj2 (str_eqb_eq suf suf) eq_refl). reflexivity.
Qed.

Definition stem_parts (name : str) (pl o sl : nat) (ck : bool) : str * str := (if ck then firstn pl name else [], firstn sl (skipn o name)).

Lemma match_stem : forall name pl t pre suf o sl ck, pattern t pre suf -> pl <= length name ->
  match_target name pl t = Some (o, sl, ck) -> (if ck then skipn pl name else name) = pre ++ firstn sl (skipn o name) ++ suf /\ (ck = true \/ firstn sl (skipn o name) <> []).
Proof.
  intros name pl t pre suf o sl ck P L H. apply (match_target_iff _ _ _ _ _ _ _ _ P L) in H. destruct H as (E & st & E1 & -> & -> & NE).
  replace (firstn (length st) (skipn (if ck then length pre + pl else length pre) name)) with st; [split; [exact E1|exact NE]|].
  assert (S1 : forall x : str, x = pre ++ st ++ suf -> firstn (length st) (skipn (length pre) x) = st).
  { intros x ->. rewrite skipn_app, skipn_all, Nat.sub_diag. cbn [app skipn]. rewrite firstn_app, firstn_all, Nat.sub_diag. apply app_nil_r. }
  destruct ck; [|symmetry; apply S1; exact E1]. rewrite <- (skipn_skipn _ (length pre) pl). symmetry. apply S1. exact E1.
Qed.

Lemma match_fits : forall archive name t pre suf, pattern t pre suf ->
  forall prefix st, fits archive name t prefix st <->
  exists o sl ck, match_target name (pathlen archive name) t = Some (o, sl, ck) /\ stem_parts name (pathlen archive name) o sl ck = (prefix, st).
Proof.
  intros archive name t pre suf P prefix st. set (pl := pathlen archive name). pose proof (pathlen_le archive name) as PL. fold pl in PL.
  assert (PU : forall pre' suf', pattern t pre' suf' -> pre' = pre /\ suf' = suf).
  { intros pre' suf' [A B]. destruct P as [A' B']. rewrite A' in A. assert (L : length pre' = length pre) by congruence.
    assert (pre' = pre).
    { pose proof (f_equal (firstn (length pre)) A) as F. rewrite firstn_app, firstn_all, Nat.sub_diag in F. rewrite firstn_app, <- L, firstn_all, Nat.sub_diag in F. cbn [firstn] in F. rewrite !app_nil_r in F. symmetry. exact F. }
    subst pre'. apply app_inv_head in A. injection A as <-. auto. }
  assert (CK : forall dir, dir = firstn pl name -> (checked pl t = true <-> dir <> [] /\ ~ In c_slash (fst t))).
  { intros dir ->. unfold checked. rewrite andb_true_iff, Nat.ltb_lt, negb_true_iff, <- not_true_iff_false, has_slash_iff.
    assert (0 < pl <-> firstn pl name <> []); [|tauto]. split.
    - intros H K. apply (f_equal (@length ascii)) in K. rewrite firstn_length in K. cbn in K. lia.
    - intros H. destruct (Nat.eq_dec pl 0) as [Z|Z]; [|lia]. rewrite Z in H. exfalso. apply H. reflexivity. }
  split.
  - intros H. destruct H as [dir base pre' suf' st PA D P' N E|dir base pre' suf' st PA P' D E NE]; destruct (PU _ _ P') as [-> ->]; apply parts_pathlen in PA; destruct PA as [Ed Eb]; fold pl in Ed, Eb.
    + exists (length pre + pl), (length st), true. split.
      * apply (match_target_iff _ _ _ _ _ _ _ _ P PL). split; [symmetry; apply (CK dir Ed); auto|]. exists st. subst base. auto 6.
      * unfold stem_parts. rewrite Ed. f_equal. rewrite <- (skipn_skipn _ (length pre) pl), <- Eb, E. rewrite skipn_app, skipn_all, Nat.sub_diag. cbn [app skipn].
        rewrite firstn_app, firstn_all, Nat.sub_diag. apply app_nil_r.
    + exists (length pre), (length st), false. split.
      * apply (match_target_iff _ _ _ _ _ _ _ _ P PL). split.
        -- pose proof (CK dir Ed) as C. destruct (checked pl t); [|reflexivity]. exfalso. destruct (proj1 C eq_refl) as [C1 C2]. destruct D as [D|D]; auto.
        -- exists st. auto 6.
      * unfold stem_parts. f_equal. rewrite E. rewrite skipn_app, skipn_all, Nat.sub_diag. cbn [app skipn].
        rewrite firstn_app, firstn_all, Nat.sub_diag. apply app_nil_r.
  - intros (o & sl & ck & M & E). unfold stem_parts in E. pose proof (match_stem _ _ _ _ _ _ _ _ P PL M) as [S1 NE].
    apply (match_target_iff _ _ _ _ _ _ _ _ P PL) in M. destruct M as (EC & _). pose proof (pathlen_parts archive name) as PP. fold pl in PP.
    destruct ck; injection E as <- <-.
    + symmetry in EC. apply (CK _ eq_refl) in EC. destruct EC as [D N]. exact (f_base archive name t _ _ pre suf _ PP D P N S1).
    + apply (f_whole archive name t _ _ pre suf _ PP P); [|exact S1|].
      2:{ destruct NE as [NE|NE]; [discriminate|exact NE]. }
      destruct (firstn pl name) eqn:F; [left; reflexivity|]. right. destruct (has_slash (fst t)) eqn:HS; [apply has_slash_iff; exact HS|].
      exfalso. assert (checked pl t = true); [|congruence]. apply (CK _ eq_refl). split; [discriminate|]. rewrite <- has_slash_iff, HS. discriminate.
Qed.

(** ** Candidates *)

From Coq Require Import Sorted.

Section Cand.
  Variable name : str.
  Variable pl : nat.
  Variable recursing : bool.
  Definition skipped (r : rule) (t : str * nat) : bool := recursing && match_anything t && negb (r_terminal r).
  Definition empty_rule (r : rule) : bool := match r_deps r, r_cmds r with [], None => true | _, _ => false end.

  Lemma try_targets_in : forall i r ts ti t, In t (fst (try_targets name pl recursing i r ti ts)) <->
    exists k tgt o sl ck, nth_error ts k = Some tgt /\ skipped r tgt = false /\ match_target name pl tgt = Some (o, sl, ck) /\
      empty_rule r = false /\ t = mktry i r (ti + k) o sl ck 0.
  Proof.
    intros i r. induction ts as [|u ts IH]; intros ti t; [split; [intros []|intros (k & tgt & o & sl & ck & H & _); destruct k; discriminate]|].
    cbn [try_targets]. specialize (IH (S ti) t). destruct (try_targets name pl recursing i r (S ti) ts) as [l sp]. cbn [fst] in IH.
    assert (IH' : In t l <-> exists k tgt o sl ck, nth_error (u :: ts) (S k) = Some tgt /\ skipped r tgt = false /\ match_target name pl tgt = Some (o, sl, ck) /\
      empty_rule r = false /\ t = mktry i r (ti + S k) o sl ck 0).
    { rewrite IH. cbn [nth_error]. setoid_rewrite Nat.add_succ_r. reflexivity. }
    clear IH. fold (skipped r u). destruct (skipped r u) eqn:SK.
    - cbn [fst]. rewrite IH'. split.
      + intros (k & H). exists (S k). exact H.
      + intros ([|k] & tgt & o & sl & ck & H & H1 & H'); [cbn in H; injection H as <-; congruence|]. exists k, tgt, o, sl, ck. auto.
    - destruct (match_target name pl u) as [[[o sl] ck]|] eqn:M.
      + destruct (empty_rule r) eqn:ER.
        * assert (E : forall A (x y : A), match r_deps r, r_cmds r with [], None => x | _, _ => y end = x).
          { intros A x y. unfold empty_rule in ER. destruct (r_deps r), (r_cmds r); try discriminate. reflexivity. }
          rewrite E. cbn [fst]. rewrite IH'. split.
          -- intros (k & H). exists (S k). exact H.
          -- intros (k & tgt & o' & sl' & ck' & _ & _ & _ & Z & _). discriminate.
        * assert (E : forall A (x y : A), match r_deps r, r_cmds r with [], None => x | _, _ => y end = y).
          { intros A x y. unfold empty_rule in ER. destruct (r_deps r), (r_cmds r); try discriminate; reflexivity. }
          rewrite E. cbn [fst In]. rewrite IH'. split.
          -- intros [H|(k & H)]; [|exists (S k); exact H]. exists 0, u, o, sl, ck. rewrite Nat.add_0_r. auto 6.
          -- intros ([|k] & tgt & o' & sl' & ck' & H & H1 & H2 & H3 & H4).
             ++ left. cbn in H. injection H as <-. rewrite M in H2. injection H2 as <- <- <-. rewrite Nat.add_0_r in H4. symmetry. exact H4.
             ++ right. exists k, tgt, o', sl', ck'. auto.
      + cbn [fst]. rewrite IH'. split.
        * intros (k & H). exists (S k). exact H.
        * intros ([|k] & tgt & o & sl & ck & H & H1 & H2 & H3); [cbn in H; injection H as <-; congruence|]. exists k, tgt, o, sl, ck. auto.
  Qed.

  Lemma try_targets_specific : forall i r ts ti, snd (try_targets name pl recursing i r ti ts) = true <->
    exists tgt, In tgt ts /\ skipped r tgt = false /\ match_target name pl tgt <> None /\ match_anything tgt = false.
  Proof.
    intros i r. induction ts as [|u ts IH]; intros ti; [split; [discriminate|intros (tgt & [] & _)]|].
    cbn [try_targets]. specialize (IH (S ti)). destruct (try_targets name pl recursing i r (S ti) ts) as [l sp]. cbn [snd] in IH.
    fold (skipped r u). destruct (skipped r u) eqn:SK.
    - cbn [snd]. rewrite IH. split; [intros (tgt & H & H'); exists tgt; cbn [In]; auto|].
      intros (tgt & [<-|H] & H1 & H'); [congruence|]. exists tgt. auto.
    - destruct (match_target name pl u) as [[[o sl] ck]|] eqn:M.
      + assert (E : snd (match r_deps r, r_cmds r with [], None => (l, negb (match_anything u) || sp) | _, _ => (mktry i r ti o sl ck 0 :: l, negb (match_anything u) || sp) end) = negb (match_anything u) || sp).
        { destruct (r_deps r), (r_cmds r); reflexivity. }
        rewrite E, orb_true_iff, negb_true_iff, IH. split.
        * intros [H|(tgt & H & H')]; [exists u; cbn [In]; rewrite M; split; [auto|]; split; [exact SK|]; split; [discriminate|exact H]|exists tgt; cbn [In]; auto].
        * intros (tgt & [<-|H] & H1 & H2 & H3); [left; exact H3|right; exists tgt; auto].
      + cbn [snd]. rewrite IH. split; [intros (tgt & H & H'); exists tgt; cbn [In]; auto|].
        intros (tgt & [<-|H] & H1 & H2 & H'); [congruence|]. exists tgt. auto.
  Qed.

  Definition lex (a b : tryrule) : Prop := t_index a < t_index b \/ (t_index a = t_index b /\ t_matches a < t_matches b).

  Lemma try_targets_sorted : forall i r ts ti, StronglySorted lex (fst (try_targets name pl recursing i r ti ts)).
  Proof.
    intros i r. induction ts as [|u ts IH]; intros ti; [constructor|]. cbn [try_targets]. pose proof (try_targets_in i r ts (S ti)) as X. specialize (IH (S ti)).
    destruct (try_targets name pl recursing i r (S ti) ts) as [l sp]. cbn [fst] in IH, X.
    fold (skipped r u). destruct (skipped r u); [exact IH|]. destruct (match_target name pl u) as [[[o sl] ck]|]; [|exact IH].
    assert (St : StronglySorted lex (mktry i r ti o sl ck 0 :: l)).
    { constructor; [exact IH|]. apply Forall_forall. intros t H. apply X in H. destruct H as (k & tgt & o' & sl' & ck' & _ & _ & _ & _ & ->).
      right. cbn [t_index t_matches]. split; [reflexivity|lia]. }
    destruct (r_deps r), (r_cmds r); try exact St. exact IH.
  Qed.

  Variable in_use : list nat.
  Definition cancelled (r : rule) : bool := match r_deps r, r_cmds r with _ :: _, None => true | _, _ => false end.
  Lemma in_list_iff : forall x l, in_list x l = true <-> In x l.
  Proof. intros x l. unfold in_list. rewrite existsb_exists. split; [intros (y & H & E); apply Nat.eqb_eq in E; subst y; exact H|intros H; exists x; split; [exact H|apply Nat.eqb_refl]]. Qed.

  Lemma try_rules_in : forall rs i t, In t (fst (try_rules name pl recursing in_use i rs)) <->
    exists j r, nth_error rs j = Some r /\ cancelled r = false /\ ~ In (i + j) in_use /\ In t (fst (try_targets name pl recursing (i + j) r 0 (r_targets r))).
  Proof.
    induction rs as [|r rs IH]; intros i t; [split; [intros []|intros (j & r & H & _); destruct j; discriminate]|].
    cbn [try_rules]. specialize (IH (S i) t). destruct (try_rules name pl recursing in_use (S i) rs) as [l sp]. cbn [fst] in IH.
    assert (IH' : In t l <-> exists j r', nth_error (r :: rs) (S j) = Some r' /\ cancelled r' = false /\ ~ In (i + S j) in_use /\ In t (fst (try_targets name pl recursing (i + S j) r' 0 (r_targets r')))).
    { rewrite IH. cbn [nth_error]. setoid_rewrite Nat.add_succ_r. reflexivity. }
    clear IH. destruct (cancelled r) eqn:C.
    - assert (E : forall A (x y : A), match r_deps r, r_cmds r with _ :: _, None => x | _, _ => y end = x).
      { intros A x y. unfold cancelled in C. destruct (r_deps r), (r_cmds r); try discriminate. reflexivity. }
      rewrite E. cbn [fst]. rewrite IH'. split; [intros (j & H); exists (S j); exact H|].
      intros ([|j] & r' & H & H'); [cbn in H; injection H as <-; destruct H' as [H' _]; congruence|exists j, r'; auto].
    - assert (E : forall A (x y : A), match r_deps r, r_cmds r with _ :: _, None => x | _, _ => y end = y).
      { intros A x y. unfold cancelled in C. destruct (r_deps r), (r_cmds r); try discriminate; reflexivity. }
      rewrite E. destruct (in_list i in_use) eqn:U.
      + apply in_list_iff in U. cbn [fst]. rewrite IH'. split; [intros (j & H); exists (S j); exact H|].
        intros ([|j] & r' & H & H'); [rewrite Nat.add_0_r in H'; tauto|exists j, r'; auto].
      + assert (U' : ~ In i in_use) by (rewrite <- in_list_iff, U; discriminate).
        destruct (try_targets name pl recursing i r 0 (r_targets r)) as [l1 sp1] eqn:TT. cbn [fst]. rewrite in_app_iff, IH'. split.
        * intros [H|(j & H)]; [|exists (S j); exact H]. exists 0, r. rewrite Nat.add_0_r, TT. auto 6.
        * intros ([|j] & r' & H & H'); [|right; exists j, r'; auto]. cbn in H. injection H as <-. rewrite Nat.add_0_r, TT in H'. left. tauto.
  Qed.
  Lemma try_rules_specific : forall rs i, snd (try_rules name pl recursing in_use i rs) = true <->
    exists j r, nth_error rs j = Some r /\ cancelled r = false /\ ~ In (i + j) in_use /\ snd (try_targets name pl recursing (i + j) r 0 (r_targets r)) = true.
  Proof.
    induction rs as [|r rs IH]; intros i; [split; [discriminate|intros (j & r & H & _); destruct j; discriminate]|].
    cbn [try_rules]. specialize (IH (S i)). destruct (try_rules name pl recursing in_use (S i) rs) as [l sp]. cbn [snd] in IH.
    assert (IH' : sp = true <-> exists j r', nth_error (r :: rs) (S j) = Some r' /\ cancelled r' = false /\ ~ In (i + S j) in_use /\ snd (try_targets name pl recursing (i + S j) r' 0 (r_targets r')) = true).
    { rewrite IH. cbn [nth_error]. setoid_rewrite Nat.add_succ_r. reflexivity. }
    clear IH. destruct (cancelled r) eqn:C.
    - assert (E : forall A (x y : A), match r_deps r, r_cmds r with _ :: _, None => x | _, _ => y end = x).
      { intros A x y. unfold cancelled in C. destruct (r_deps r), (r_cmds r); try discriminate. reflexivity. }
      rewrite E. cbn [snd]. rewrite IH'. split; [intros (j & H); exists (S j); exact H|].
      intros ([|j] & r' & H & H'); [cbn in H; injection H as <-; destruct H' as [H' _]; congruence|exists j, r'; auto].
    - assert (E : forall A (x y : A), match r_deps r, r_cmds r with _ :: _, None => x | _, _ => y end = y).
      { intros A x y. unfold cancelled in C. destruct (r_deps r), (r_cmds r); try discriminate; reflexivity. }
      rewrite E. destruct (in_list i in_use) eqn:U.
      + apply in_list_iff in U. cbn [snd]. rewrite IH'. split; [intros (j & H); exists (S j); exact H|].
        intros ([|j] & r' & H & H'); [rewrite Nat.add_0_r in H'; tauto|exists j, r'; auto].
      + assert (U' : ~ In i in_use) by (rewrite <- in_list_iff, U; discriminate).
        destruct (try_targets name pl recursing i r 0 (r_targets r)) as [l1 sp1] eqn:TT. cbn [snd]. rewrite orb_true_iff, IH'. split.
        * intros [H|(j & H)]; [|exists (S j); exact H]. exists 0, r. rewrite Nat.add_0_r, TT. auto 6.
        * intros ([|j] & r' & H & H'); [|right; exists j, r'; auto]. cbn in H. injection H as <-. rewrite Nat.add_0_r, TT in H'. left. tauto.
  Qed.

  Lemma sorted_app : forall A (R : A -> A -> Prop) l l', StronglySorted R l -> StronglySorted R l' -> (forall a b, In a l -> In b l' -> R a b) -> StronglySorted R (l ++ l').
  Proof.
    intros A R l l' H H' X. induction H as [|a l H IH F]; [exact H'|]. cbn [app]. constructor.
    - apply IH. intros x y Hx. apply X. right. exact Hx.
    - apply Forall_app. split; [exact F|]. apply Forall_forall. intros b Hb. apply X; [left; reflexivity|exact Hb].
  Qed.
  Lemma try_rules_sorted : forall rs i, StronglySorted lex (fst (try_rules name pl recursing in_use i rs)).
  Proof.
    induction rs as [|r rs IH]; intros i; [constructor|]. cbn [try_rules]. pose proof (try_rules_in rs (S i)) as X. specialize (IH (S i)).
    destruct (try_rules name pl recursing in_use (S i) rs) as [l sp]. cbn [fst] in IH, X.
    pose proof (try_targets_sorted i r (r_targets r) 0) as St. pose proof (try_targets_in i r (r_targets r) 0) as Y.
    destruct (try_targets name pl recursing i r 0 (r_targets r)) as [l1 sp1]. cbn [fst] in St, Y.
    assert (Z : StronglySorted lex (l1 ++ l)).
    { apply sorted_app; [exact St|exact IH|]. intros a b Ha Hb. apply Y in Ha. apply X in Hb.
      destruct Ha as (k & tgt & o & sl & ck & _ & _ & _ & _ & ->). destruct Hb as (j & r' & _ & _ & _ & Hb). apply try_targets_in in Hb.
      destruct Hb as (k' & tgt' & o' & sl' & ck' & _ & _ & _ & _ & ->). left. cbn [t_index]. lia. }
    destruct (r_deps r), (r_cmds r), (in_list i in_use); cbn [fst]; assumption.
  Qed.
End Cand.

Definition with_order (t : tryrule) (n : nat) : tryrule := mktry (t_index t) (t_rule t) (t_matches t) (t_stem t) (t_stemlen t) (t_check t) n.
Lemma number_in : forall l n t, In t (number n l) <-> exists k u, nth_error l k = Some u /\ t = with_order u (n + k).
Proof.
  induction l as [|u l IH]; intros n t; [split; [intros []|intros (k & u & H & _); destruct k; discriminate]|].
  cbn [number In]. rewrite IH. split.
  - intros [H|(k & v & H & E)]; [exists 0, u; rewrite Nat.add_0_r; split; [reflexivity|symmetry; exact H]|exists (S k), v; rewrite Nat.add_succ_r; auto].
  - intros ([|k] & v & H & E); [left; injection H as <-; rewrite Nat.add_0_r in E; symmetry; exact E|right; exists k, v; rewrite Nat.add_succ_r in E; auto].
Qed.
Lemma number_sorted : forall l n, StronglySorted lex l -> StronglySorted (fun a b => lex a b /\ t_order a < t_order b) (number n l).
Proof.
  intros l n H. revert n. induction H as [|a l H IH F]; intros n; [constructor|]. cbn [number]. constructor; [apply IH|].
  apply Forall_forall. intros b Hb. apply number_in in Hb. destruct Hb as (k & u & Hk & ->). apply nth_error_In in Hk. rewrite Forall_forall in F. specialize (F u Hk).
  split; [exact F|]. cbn [t_order with_order]. lia.
Qed.

Lemma insert_in : forall pl t l x, In x (insert pl t l) <-> x = t \/ In x l.
Proof.
  intros pl t. induction l as [|u l IH]; intros x; cbn [insert In]; [intuition congruence|]. destruct (before pl u t); cbn [In]; [rewrite IH|]; intuition congruence.
Qed.
Lemma sort_in : forall pl l x, In x (sort_rules pl l) <-> In x l.
Proof. intros pl. induction l as [|t l IH]; intros x; [reflexivity|]. cbn [sort_rules fold_right]. fold (sort_rules pl l). rewrite insert_in, IH. cbn [In]. intuition congruence. Qed.

Definition prior (pl : nat) (a b : tryrule) : Prop := sooner (full_len pl a) (t_index a) (t_matches a) (full_len pl b) (t_index b) (t_matches b).
Lemma prior_trans : forall pl a b c, prior pl a b -> prior pl b c -> prior pl a c.
Proof. unfold prior, sooner. intros pl a b c H H'. lia. Qed.
Lemma sort_sorted : forall pl l, StronglySorted (fun a b => lex a b /\ t_order a < t_order b) l -> StronglySorted (prior pl) (sort_rules pl l).
Proof.
  intros pl l H. induction H as [|a l H IH F]; [constructor|]. cbn [sort_rules fold_right]. fold (sort_rules pl l).
  assert (F' : forall b, In b (sort_rules pl l) -> lex a b /\ t_order a < t_order b).
  { intros b Hb. apply (proj1 (sort_in pl l b)) in Hb. rewrite Forall_forall in F. exact (F b Hb). }
  clear F H. revert IH F'. generalize (sort_rules pl l). intros m. induction m as [|u m IHm]; intros IH F'; cbn [insert]; [repeat constructor|].
  inversion IH as [|x y S1 S2]; subst. assert (FU := F' u (or_introl eq_refl)). destruct (before pl u a) eqn:B.
  - constructor; [apply IHm; [exact S1|intros b Hb; apply F'; right; exact Hb]|]. apply Forall_forall. intros x Hx. apply insert_in in Hx. destruct Hx as [->|Hx].
    + unfold before in B. apply orb_true_iff in B. destruct B as [B|B]; [apply Nat.ltb_lt in B; left; exact B|].
      apply andb_true_iff in B. destruct B as [_ B]. apply Nat.ltb_lt in B. lia.
    + rewrite Forall_forall in S2. exact (S2 x Hx).
  - assert (P : prior pl a u).
    { unfold before in B. apply orb_false_iff in B. destruct B as [B1 B2]. apply Nat.ltb_ge in B1. destruct FU as [L O].
      unfold prior, sooner. unfold lex in L. lia. }
    constructor; [exact IH|]. constructor; [exact P|]. apply Forall_forall. intros x Hx. rewrite Forall_forall in S2. exact (prior_trans pl a u x P (S2 x Hx)).
Qed.
Lemma sorted_filter : forall A (R : A -> A -> Prop) f l, StronglySorted R l -> StronglySorted R (filter f l).
Proof.
  intros A R f l H. induction H as [|a l H IH F]; [constructor|]. cbn [filter]. destruct (f a); [|exact IH]. constructor; [exact IH|].
  apply Forall_forall. intros x Hx. apply filter_In in Hx. rewrite Forall_forall in F. apply F. tauto.
Qed.

(** ** Candidates and the specification *)

Lemma anything_iff : forall t pre suf, pattern t pre suf -> (match_anything t = true <-> anything t).
Proof.
  intros t pre suf [E1 E2]. unfold match_anything, anything. rewrite Nat.eqb_eq, E1, app_length. cbn [length]. split.
  - intros H. destruct pre; [|cbn in H; lia]. destruct suf; [reflexivity|cbn in H; lia].
  - intros H. apply (f_equal (@length ascii)) in H. rewrite app_length in H. exact H.
Qed.

Section Link.
  Variable rules : list rule.
  Hypothesis WF : forall r, In r rules -> well_formed r.
  Variable in_use : list nat.
  Variable recursing archive : bool.
  Variable name : str.
  Let pl := pathlen archive name.
  Definition stems (t : tryrule) : str * str := stem_parts name (pathlen archive name) (t_stem t) (t_stemlen t) (t_check t).
  (** An entry stands for a candidate. *)
  Definition stands (t : tryrule) (i ti : nat) (r : rule) (prefix st : str) : Prop :=
    t_index t = i /\ t_matches t = ti /\ t_rule t = r /\ stems t = (prefix, st).

  Lemma skipped_iff : forall r tgt pre suf, pattern tgt pre suf -> (skipped recursing r tgt = false <-> (recursing = true -> anything tgt -> r_terminal r = true)).
  Proof.
    intros r tgt pre suf P. unfold skipped. pose proof (anything_iff tgt pre suf P) as A. destruct recursing, (match_anything tgt), (r_terminal r); cbn; split; try reflexivity; try discriminate; try (intros H; intuition congruence).
  Qed.
  Lemma cancelled_iff : forall r, cancelled r = false <-> (r_deps r = [] \/ r_cmds r <> None).
  Proof. intros r. unfold cancelled. destruct (r_deps r), (r_cmds r); split; try reflexivity; try discriminate; auto; try (right; discriminate). intros [H|H]; congruence. Qed.

  Lemma specific_iff : snd (try_rules name pl recursing in_use 0 rules) = true <-> specific rules in_use recursing archive name.
  Proof.
    rewrite try_rules_specific. split.
    - intros (i & r & H1 & H2 & H3 & H4). apply try_targets_specific in H4. destruct H4 as (tgt & T1 & T2 & T3 & T4).
      destruct (WF r (nth_error_In _ _ H1) tgt T1) as (pre & suf & P).
      destruct (match_target name pl tgt) as [[[o sl] ck]|] eqn:M; [|congruence]. destruct (In_nth_error _ _ T1) as [ti HT].
      destruct (stem_parts name pl o sl ck) as [prefix st] eqn:SP.
      exists i, ti, r, tgt, prefix, st. split.
      + split; [exact H1|]. split; [exact H3|]. split; [apply cancelled_iff; exact H2|]. split; [exact HT|]. split; [apply (skipped_iff r tgt pre suf P); exact T2|].
        apply (match_fits archive name tgt pre suf P). exists o, sl, ck. auto.
      + intros A. apply (anything_iff tgt pre suf P) in A. congruence.
    - intros (i & ti & r & tgt & prefix & st & (H1 & H2 & H3 & H4 & H5 & H6) & A). exists i, r. split; [exact H1|]. split; [apply cancelled_iff; exact H3|].
      split; [exact H2|]. apply try_targets_specific. exists tgt. apply nth_error_In in H4. destruct (WF r (nth_error_In _ _ H1) tgt H4) as (pre & suf & P).
      split; [exact H4|]. split; [apply (skipped_iff r tgt pre suf P); exact H5|]. apply (match_fits archive name tgt pre suf P) in H6. destruct H6 as (o & sl & ck & M & _).
      split; [fold pl in M; rewrite M; discriminate|]. destruct (match_anything tgt) eqn:MA; [|reflexivity]. apply (anything_iff tgt pre suf P) in MA. tauto.
  Qed.

  Lemma candidates_in : forall i ti r prefix st,
    eligible rules in_use recursing archive name i ti r prefix st <->
    exists t, In t (candidates name pl recursing in_use rules) /\ stands t i ti r prefix st.
  Proof.
    intros i ti r prefix st. unfold candidates. pose proof specific_iff as SI. pose proof (try_rules_in name pl recursing in_use rules 0) as TI.
    destruct (try_rules name pl recursing in_use 0 rules) as [l sp]. cbn [fst snd] in SI, TI.
    assert (X : (exists t, In t (sort_rules pl (number 0 l)) /\ stands t i ti r prefix st) <-> (exists tgt, candidate rules in_use recursing archive name i ti r tgt prefix st) /\ r_cmds r <> None).
    { split.
      - intros (t & H & (<- & <- & <- & St)). apply (proj1 (sort_in _ _ _)) in H. apply number_in in H. destruct H as (k & u & Hk & ->). apply nth_error_In in Hk.
        apply TI in Hk. destruct Hk as (j & r' & J1 & J2 & J3 & J4). apply try_targets_in in J4. destruct J4 as (k' & tgt & o & sl & ck & K1 & K2 & K3 & K4 & ->).
        cbn [with_order t_index t_matches t_rule] in *. unfold stems in St. cbn [with_order t_stem t_stemlen t_check] in St.
        destruct (WF r' (nth_error_In _ _ J1) tgt (nth_error_In _ _ K1)) as (pre & suf & P). split.
        + exists tgt. split; [exact J1|]. split; [exact J3|]. split; [apply cancelled_iff; exact J2|]. split; [exact K1|].
          split; [apply (skipped_iff r' tgt pre suf P); exact K2|]. apply (match_fits archive name tgt pre suf P). exists o, sl, ck. auto.
        + apply cancelled_iff in J2. unfold empty_rule in K4. destruct J2 as [D|D]; [|exact D]. rewrite D in K4. destruct (r_cmds r'); [discriminate|congruence].
      - intros ((tgt & H1 & H2 & H3 & H4 & H5 & H6) & C). destruct (WF r (nth_error_In _ _ H1) tgt (nth_error_In _ _ H4)) as (pre & suf & P).
        apply (match_fits archive name tgt pre suf P) in H6. destruct H6 as (o & sl & ck & M & St).
        assert (IN : In (mktry i r ti o sl ck 0) l).
        { apply TI. exists i, r. split; [exact H1|]. split; [apply cancelled_iff; exact H3|]. split; [exact H2|]. apply try_targets_in. exists ti, tgt, o, sl, ck.
          split; [exact H4|]. split; [apply (skipped_iff r tgt pre suf P); exact H5|]. split; [exact M|]. split; [|reflexivity].
          unfold empty_rule. destruct (r_deps r), (r_cmds r); try reflexivity. congruence. }
        destruct (In_nth_error _ _ IN) as [k Hk]. exists (with_order (mktry i r ti o sl ck 0) k). split.
        + apply sort_in. apply number_in. exists k, (mktry i r ti o sl ck 0). auto.
        + split; [reflexivity|]. split; [reflexivity|]. split; [reflexivity|]. exact St. }
    assert (AN : forall t, In t (sort_rules pl (number 0 l)) -> (r_terminal (t_rule t) || negb (existsb match_anything (r_targets (t_rule t))) = true <->
                 (r_terminal (t_rule t) = true \/ forall t', In t' (r_targets (t_rule t)) -> ~ anything t'))).
    { intros t Ht. apply (proj1 (sort_in _ _ _)) in Ht. apply number_in in Ht. destruct Ht as (k & u & Hk & ->). apply nth_error_In in Hk.
      apply TI in Hk. destruct Hk as (j & r' & J1 & J2 & J3 & J4). apply try_targets_in in J4. destruct J4 as (k' & tgt & o & sl & ck & K1 & K2 & K3 & K4 & ->).
      cbn [with_order t_rule]. pose proof (WF r' (nth_error_In _ _ J1)) as W. rewrite orb_true_iff, negb_true_iff, <- not_true_iff_false, existsb_exists. split.
      - intros [H|H]; [left; exact H|right]. intros t' Ht' A. apply H. exists t'. split; [exact Ht'|]. destruct (W t' Ht') as (pre & suf & P). apply (anything_iff t' pre suf P). exact A.
      - intros [H|H]; [left; exact H|right]. intros (t' & Ht' & A). apply (H t' Ht'). destruct (W t' Ht') as (pre & suf & P). apply (anything_iff t' pre suf P). exact A. }
    unfold eligible. destruct sp.
    - assert (SP : specific rules in_use recursing archive name) by (apply SI; reflexivity). split.
      + intros (H1 & H2 & H3). destruct (proj2 X (conj H1 H2)) as (t & T1 & T2). exists t. split; [|exact T2]. apply filter_In. split; [exact T1|].
        apply (AN t T1). destruct T2 as (_ & _ & -> & _). apply H3. exact SP.
      + intros (t & T1 & T2). apply filter_In in T1. destruct T1 as [T1 T3]. apply (AN t T1) in T3. destruct (proj1 X (ex_intro _ t (conj T1 T2))) as [H1 H2].
        split; [exact H1|]. split; [exact H2|]. intros _. destruct T2 as (_ & _ & <- & _). exact T3.
    - assert (SP : ~ specific rules in_use recursing archive name) by (rewrite <- SI; discriminate). rewrite X. tauto.
  Qed.

  Lemma candidates_sorted : StronglySorted (prior pl) (candidates name pl recursing in_use rules).
  Proof.
    unfold candidates. pose proof (try_rules_sorted name pl recursing in_use rules 0) as St. destruct (try_rules name pl recursing in_use 0 rules) as [l sp]. cbn [fst] in St.
    assert (Z : StronglySorted (prior pl) (sort_rules pl (number 0 l))) by (apply sort_sorted, number_sorted; exact St).
    destruct sp; [apply sorted_filter|]; exact Z.
  Qed.

  Lemma candidates_stand : forall t, In t (candidates name pl recursing in_use rules) -> exists prefix st,
    stands t (t_index t) (t_matches t) (t_rule t) prefix st /\ eligible rules in_use recursing archive name (t_index t) (t_matches t) (t_rule t) prefix st /\
    full_len pl t = length (prefix ++ st).
  Proof.
    intros t Ht. destruct (stems t) as [prefix st] eqn:E. exists prefix, st. assert (St : stands t (t_index t) (t_matches t) (t_rule t) prefix st) by (repeat split; assumption).
    split; [exact St|]. pose proof (proj2 (candidates_in (t_index t) (t_matches t) (t_rule t) prefix st) (ex_intro _ t (conj Ht St))) as EL. split; [exact EL|].
    assert (MT : exists tgt pre suf, pattern tgt pre suf /\ match_target name pl tgt = Some (t_stem t, t_stemlen t, t_check t)).
    { unfold candidates in Ht. pose proof (try_rules_in name pl recursing in_use rules 0) as TI. destruct (try_rules name pl recursing in_use 0 rules) as [l sp]. cbn [fst] in TI.
      assert (Ht' : In t (sort_rules pl (number 0 l))) by (destruct sp; [apply filter_In in Ht; tauto|exact Ht]).
      apply (proj1 (sort_in _ _ _)) in Ht'. apply number_in in Ht'. destruct Ht' as (k & u & Hk & ->). apply nth_error_In in Hk.
      apply TI in Hk. destruct Hk as (j & r' & J1 & J2 & J3 & J4). apply try_targets_in in J4. destruct J4 as (k' & tgt & o & sl & ck & K1 & K2 & K3 & K4 & ->).
      destruct (WF r' (nth_error_In _ _ J1) tgt (nth_error_In _ _ K1)) as (pre & suf & P). exists tgt, pre, suf. split; [exact P|exact K3]. }
    destruct MT as (tgt & pre & suf & P & M). pose proof (pathlen_le archive name) as PL. fold pl in PL.
    apply (match_target_iff _ _ _ _ _ _ _ _ P PL) in M. destruct M as (_ & st' & E1 & E2 & E3 & _).
    unfold stems, stem_parts in E. fold pl in E. injection E as Ep Es. unfold full_len. rewrite app_length.
    assert (L : length st = t_stemlen t).
    { rewrite <- Es, firstn_length, skipn_length. apply (f_equal (@length ascii)) in E1. rewrite !app_length in E1. rewrite E2, E3. destruct (t_check t); [rewrite skipn_length in E1|]; lia. }
    rewrite L, <- Ep. destruct (t_check t); [rewrite firstn_length|cbn [length]]; lia.
  Qed.
End Link.
