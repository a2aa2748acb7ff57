(** The tests of S_DefineCheck succeed for all inputs, by the theorems of C70; so those of W_Define must. *)
From Coq Require Import Lia String List NArith.
From Verif Require Import Base M_Quote M_Text P_Text M_Define S_Define P_Define Properties_Define S_DefineCheck W_Random W_Define.
From Verif Require Properties_Quote.
Open Scope string_scope.
Open Scope list_scope.
Open Scope nat_scope.

Lemma trimmed_next l : trimmed l = next_token l.
Proof. induction l as [|c l IH]; cbn [trimmed next_token]; [reflexivity|]. rewrite IH. reflexivity. Qed.
Lemma split_spec w : (forall c, In c w -> isblank c = false) -> forall l r, split_word l = (w, r) <-> word w l = Some r.
Proof.
  intros W l r. rewrite word_spec. revert l r. induction w as [|a w IH]; intros l r.
  - cbn [app]. destruct l as [|c l]; cbn [split_word].
    + split; [intros H; injection H as <-; auto|]. intros [<- _]. reflexivity.
    + destruct (isblank c) eqn:B; [split; [intros H; injection H as <-; eauto 6|intros [<- _]; reflexivity]|]. destruct (split_word l) as [x y]. split; [discriminate|]. intros [<- [H|(c' & t & E & B')]]; [discriminate|]. injection E as <- _. congruence.
  - cbn [app]. destruct l as [|c l]; cbn [split_word]; [split; [discriminate|intros [H _]; discriminate]|]. destruct (isblank c) eqn:B.
    + split; [discriminate|]. intros [H _]. injection H as -> _. rewrite (W a (or_introl eq_refl)) in B. discriminate.
    + specialize (IH (fun x I => W x (or_intror I)) l r). destruct (split_word l) as [x y]. split.
      * intros H. injection H as -> -> ->. destruct (proj1 IH eq_refl) as [-> R]. auto.
      * intros [H R]. injection H as -> H. assert (X : (x, y) = (w, r)) by (apply IH; auto). injection X as -> ->. reflexivity.
Qed.
Lemma begins_spec prefix a w l : isspace a = false -> (forall c, In c (a :: w) -> isblank c = false) -> (begins prefix (a :: w) l = true <-> exists r, starts prefix (a :: w) l r) /\ (forall r, starts prefix (a :: w) l r -> behind l = r).
Proof.
  intros A W. assert (G : forall r, starts prefix (a :: w) l r -> split_word (trimmed l) = (a :: w, r)) by (intros r S; apply starts_next in S; [|exact A]; destruct S as [_ S]; rewrite trimmed_next; apply split_spec; auto).
  split; [|intros r S; unfold behind; rewrite (G r S); reflexivity]. unfold begins. split.
  - destruct l as [|c l]; [discriminate|]. intros H. apply andb_true_iff in H. destruct H as [P E]. apply str_eqb_eq in E. destruct (split_word (trimmed (c :: l))) as [x r] eqn:Q. cbn [fst] in E. subst x. exists r. apply starts_next; [exact A|]. split; [intros d t D; injection D as <- _; intros ->; rewrite Ascii.eqb_refl in P; discriminate|]. rewrite trimmed_next in Q. apply split_spec in Q; auto.
  - intros (r & S). destruct l as [|c l]; [destruct S as ((sp & _ & E) & _); destruct sp; discriminate|]. rewrite (G r S). cbn [fst]. rewrite str_eqb_refl, andb_true_r. destruct S as (_ & P & _). apply negb_true_iff, Ascii.eqb_neq. apply (P _ _ eq_refl).
Qed.
Lemma begins_define prefix l : begins prefix (s2l "define") l = true <-> opens prefix l.
Proof. unfold opens. change (s2l "define") with ("d"%char :: s2l "efine"). apply begins_spec; [reflexivity|]. intros c I. cbn in I. intuition (subst; reflexivity). Qed.
Lemma begins_endef prefix l : (begins prefix (s2l "endef") l = true <-> closes prefix l) /\ forall r, starts prefix (s2l "endef") l r -> behind l = r.
Proof. unfold closes. change (s2l "endef") with ("e"%char :: s2l "ndef"). apply begins_spec; [reflexivity|]. intros c I. cbn in I. intuition (subst; reflexivity). Qed.
Lemma single_spec l : single l = true -> ~ In c_nl l.
Proof. intros H I. unfold single in H. apply negb_true_iff, not_true_iff_false in H. apply H. apply existsb_exists. exists c_nl. split; [exact I|apply Ascii.eqb_refl]. Qed.
Lemma uncommented_spec l : uncommented l = true -> ~ In (ascii_of_nat 35) l.
Proof. intros H I. unfold uncommented in H. apply negb_true_iff, not_true_iff_false in H. apply H. apply existsb_exists. exists (ascii_of_nat 35). split; [exact I|apply Ascii.eqb_refl]. Qed.
Lemma good_spec prefix t : good prefix t = true -> balanced prefix (flat t) /\ (forall l, In l (flat t) -> ~ In c_nl l) /\ (forall l, In l (flat t) -> closes prefix l -> ~ In (ascii_of_nat 35) l).
Proof.
  induction t as [|l t IH|d a IHa e t IHt]; cbn [good flat]; intros H.
  - split; [apply bal_nil|]. split; intros l [].
  - rewrite !andb_true_iff, !negb_true_iff in H. destruct H as (((A & B) & C) & D). destruct (IH D) as (X & Y & Z). assert (NC : ~ closes prefix l) by (intros Q; apply begins_endef in Q; congruence). split; [apply bal_line; auto; intros Q; apply begins_define in Q; congruence|].
    split; [intros l' [<-|I]; [apply single_spec; exact A|auto]|intros l' [<-|I] Q; [contradiction|auto]].
  - rewrite !andb_true_iff in H. destruct H as ((((((A & B) & C) & D) & E) & F) & G). destruct (IHa C) as (X & Y & Z). destruct (IHt G) as (X' & Y' & Z'). apply begins_define in B. apply begins_endef in F. split; [apply bal_block; auto|]. split.
    + intros l [<-|I]; [apply single_spec; exact A|]. apply in_app_or in I. destruct I as [I|[<-|I]]; [auto|apply single_spec; exact D|auto].
    + intros l [<-|I] Q; [exfalso; eapply exclusive; eauto|]. apply in_app_or in I. destruct I as [I|[<-|I]]; [auto|apply uncommented_spec; exact E|auto].
Qed.
Lemma run_short prefix b e rest : closes prefix e -> forall n m, run prefix n b 1 -> run prefix n (b ++ e :: rest) m -> False.
Proof.
  intros C. induction b as [|l b IH]; intros n m R R'; cbn [app] in *.
  - inversion R; subst. inversion R'; subst; [contradiction|]. eapply exclusive; eauto.
  - inversion R; subst; inversion R'; subst; try contradiction; try (eapply exclusive; eauto; fail); eapply IH; eauto.
Qed.
Theorem C70_check : forall posix prefix t e rest, t_define posix prefix t e rest = true.
Proof.
  intros posix prefix t e rest. unfold t_define. destruct (good prefix t && single e && uncommented e && begins prefix (s2l "endef") e) eqn:U; [|reflexivity]. cbn [negb orb]. rewrite !andb_true_iff in U. destruct U as (((G & SE) & UE) & BE). apply good_spec in G. destruct G as (B & NL & NH). apply single_spec in SE. apply uncommented_spec in UE. apply begins_endef in BE.
  assert (SG : forall l, ~ In c_nl l -> collapse_continuations posix l = l) by (intros l; apply Properties_Quote.C18_single_line_unchanged).
  assert (M : map (collapse_continuations posix) (flat t) = flat t) by (rewrite <- (map_id (flat t)) at 2; apply map_ext_in; auto).
  assert (B' : balanced prefix (map (collapse_continuations posix) (flat t))) by (rewrite M; exact B). assert (C' : closes prefix (collapse_continuations posix e)) by (rewrite SG by exact SE; exact BE).
  apply andb_true_iff. split.
  - destruct (C70_ends posix prefix (flat t) e rest B' C') as (ks & w & F & H). rewrite H. rewrite M in F.
    assert (K : ks = flat t). { clear - F NH. induction F as [|l k ls ks K F IH]; [reflexivity|]. f_equal; [|apply IH; intros; apply NH; [right|]; assumption]. destruct K as [(-> & _) | (C & [-> | I])]; try reflexivity. destruct (NH l (or_introl eq_refl) C I). }
    subst ks. rewrite str_eqb_refl. assert (LE : forall l, lines_eqb l l = true) by (induction l as [|x l IH]; cbn [lines_eqb]; [reflexivity|rewrite str_eqb_refl; exact IH]). rewrite LE. cbn [andb].
    assert (IN : forall l, In l (flat t ++ [e]) -> collapse_continuations posix l = l /\ (closes prefix l -> ~ In (ascii_of_nat 35) l)) by (intros l I; apply in_app_or in I; destruct I as [I|[<-|[]]]; auto).
    assert (W : w = 0 <-> forall l r, In l (flat t ++ [e]) -> starts prefix (s2l "endef") (collapse_continuations posix l) r -> blankline r).
    { eapply C70_warning; eauto. intros l r I S X. destruct (IN l I) as [E N]. rewrite E in S. apply N; [exists r; exact S|]. destruct S as ((sp & _ & ->) & _). apply in_or_app. right. apply in_or_app. right. exact X. }
    destruct (forallb (quiet prefix) (flat t ++ [e])) eqn:Q.
    + assert (w = 0); [|subst; reflexivity]. apply W. intros l r I S. destruct (IN l I) as [E _]. rewrite E in S. rewrite forallb_forall in Q. specialize (Q l I). unfold quiet in Q. rewrite (proj2 (proj1 (begins_endef prefix l))) in Q by (exists r; exact S). cbn [negb orb] in Q. rewrite (proj2 (begins_endef prefix l) r S) in Q. rewrite forallb_forall in Q. exact Q.
    + destruct (Nat.eqb_spec w 0) as [->|]; [|reflexivity]. exfalso. apply not_true_iff_false in Q. apply Q. apply forallb_forall. intros l I. destruct (IN l I) as [E _]. unfold quiet. destruct (begins prefix (s2l "endef") l) eqn:X; [|reflexivity]. cbn [negb orb]. apply begins_endef in X. destruct X as (r & S). rewrite (proj2 (begins_endef prefix l) r S). apply forallb_forall. apply (proj1 W eq_refl l r I). rewrite E. exact S.
  - assert (H : body posix prefix 1 empty 0 (flat t) = Missing); [|rewrite H; reflexivity]. apply C70_missing. intros (b & e' & rest' & E & Bb & Ce). apply run_balanced in B', Bb. rewrite E, map_app in B'. cbn [map] in B'. eapply run_short; eauto.
Qed.
Lemma defines_follow l : defines_hold l = true.
Proof.
  apply forallb_forall. intros s _. unfold one_define. destruct (w_tree 5 3 s) as [t s1]. destruct (pick [] w_ends s1) as [e s2]. destruct (several 0 3 (pick [] w_lines) s2) as [rest s3]. destruct (chance 50 s3) as [p s4]. destruct (chance 20 s4) as [q s5]. apply C70_check.
Qed.
Print Assumptions C70_check.
