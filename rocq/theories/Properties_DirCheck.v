(** The tests of C66 must succeed: they follow from the theorems. *)
From Coq Require Import Lia NArith.
From Verif Require Import Base M_Dir S_Dir S_DirCheck W_Random P_Dir P_Dir2 Properties_Dir W_Dir.
Open Scope list_scope.
Open Scope nat_scope.

Lemma inb_iff f l : inb f l = true <-> In f l.
Proof. unfold inb. rewrite existsb_exists. split; [intros (x & I & E); apply str_eqb_eq in E; subst; auto | intros I; exists f; split; auto; apply str_eqb_eq; auto]. Qed.
Lemma present_iff vs d f : presentb vs d f = true <-> present vs d f.
Proof. unfold presentb, present. destruct (files vs d) as [l|]; [rewrite inb_iff|]; split; eauto; try discriminate; intros (l' & E & I); [injection E as <-; auto | discriminate]. Qed.
Lemma same_iff vs d e : sameb vs d e = true <-> same vs d e.
Proof.
  unfold sameb, same. rewrite orb_true_iff, str_eqb_eq. split; (intros [H|H]; [auto | right]).
  - destruct (node vs d) as [i|], (node vs e) as [j|]; try discriminate. apply Nat.eqb_eq in H. subst. eauto.
  - destruct H as (i & -> & ->). apply Nat.eqb_refl.
Qed.
Lemma marked_iff es d f : was_markedb es d f = true <-> was_marked es d f.
Proof.
  unfold was_markedb, was_marked. rewrite existsb_exists. split.
  - intros ([w k] & I & H). destruct k as [| e g | |]; try discriminate. cbn in H. apply andb_true_iff in H. destruct H as [E H]. apply str_eqb_eq in E. apply same_iff in H. subst g. eauto.
  - intros (w & e & I & H). exists (w, Mark e f). split; auto. cbn. apply andb_true_iff. split; [apply str_eqb_eq; auto | apply same_iff, H].
Qed.
Lemma any_iff es d : any_marked es d = true <-> exists f, was_marked es d f.
Proof.
  unfold any_marked, was_marked. rewrite existsb_exists. split.
  - intros ([w k] & I & H). destruct k as [| e g | |]; try discriminate. cbn in H. apply same_iff in H. eauto.
  - intros (f & w & e & I & H). exists (w, Mark e f). split; auto. apply same_iff, H.
Qed.
Lemma careful_b es : carefulb es = true -> careful es.
Proof.
  unfold carefulb. rewrite forallb_forall. intros H w d f I. specialize (H _ I). cbn in H. destruct f as [| a f]; cbn.
  - destruct (files (visits es) d); congruence.
  - apply negb_true_iff in H. intros P. apply present_iff in P. congruence.
Qed.
Lemma distinct_iff l : distinct l = true <-> NoDup l.
Proof.
  induction l as [| f l IH]; cbn; [split; auto; constructor|]. rewrite andb_true_iff, negb_true_iff, IH. split.
  - intros [A B]. constructor; auto. intros I. apply inb_iff in I. congruence.
  - intros H. inversion H as [| ? ? A B]; subst. split; auto. destruct (inb f l) eqn:E; auto. destruct A. apply inb_iff, E.
Qed.

Lemma exists_check es w d f : careful es -> t_exists es w d f = true.
Proof.
  intros C. unfold t_exists. destruct f as [| a f]; apply eqb_true_iff, eq_true_iff_eq.
  - rewrite C66_directory by auto. destruct (files (visits (es ++ [(w, Exists d [])])) d); rewrite ?any_iff; split; auto; [intros _; left; discriminate | intros [X|X]; [congruence | auto]].
  - rewrite C66_exists by (auto; discriminate). rewrite present_iff. tauto.
Qed.
Lemma marked_check es w d f : careful es -> t_marked es w d f = true.
Proof. intros C. unfold t_marked. apply eqb_true_iff, eq_true_iff_eq. rewrite C66_marked, marked_iff by auto. tauto. Qed.
Lemma glob_check es w d : careful es -> t_glob es w d = true.
Proof.
  intros C. unfold t_glob. pose proof (C66_glob es w d C) as G. destruct (files (visits (es ++ [(w, Glob d)])) d) as [l|].
  - destruct G as (names & -> & N & I). rewrite !andb_true_iff, distinct_iff, !forallb_forall. split; [split; auto|]; intros f X; apply inb_iff, I, X.
  - destruct G as [-> | (-> & M)]; auto. apply any_iff, M.
Qed.
Lemma open_iff st i : is_open st i = true <-> exists c s, s_contents st (Node i) = Some c /\ c_stream c = Some s.
Proof.
  unfold is_open. destruct (s_contents st (Node i)) as [c|]; [destruct (c_stream c) as [s|] eqn:S|]; split; eauto; try discriminate; intros (c' & s' & X & Y); congruence.
Qed.
Lemma open_check es n : t_open es n = true.
Proof.
  unfold t_open. destruct (C66_open es) as (L & A & B & M & I & _). rewrite andb_true_iff, Nat.leb_le, Nat.ltb_lt, <- B. split; auto. apply NoDup_incl_length; [apply NoDup_filter, seq_NoDup|].
  intros i X. apply filter_In in X. apply I, open_iff. tauto.
Qed.
Lemma count_check es : careful es -> t_count es = true.
Proof.
  intros C. unfold t_count. destruct (C66_open es) as (L & A & B & M & I & _). rewrite Nat.eqb_eq, <- B. apply Nat.le_antisymm; apply NoDup_incl_length; auto.
  - apply NoDup_filter, NoDup_nodup.
  - intros i X. apply filter_In in X. apply I, open_iff. tauto.
  - intros i X. apply filter_In. split; [|apply open_iff, I, X]. apply nodup_In. apply I in X. destruct X as (c & s & X & _).
    destruct (find (is_node (visits es) i) (visits es)) as [v|] eqn:F.
    + apply find_some in F. destruct F as [F1 F2]. unfold nodes. apply in_flat_map. exists v. split; auto. unfold is_node in F2. destruct (node (visits es) (snd v)) as [j|]; [|discriminate].
      apply Nat.eqb_eq in F2. left. auto.
    + exfalso. assert (N : s_contents (calls init es) (Node i) = None). { apply (i_none _ _ _ (calls_inv es C)). rewrite visited_find. congruence. } congruence.
Qed.
Theorem C66_check : forall es w ds fs n, t_run es w ds fs n = true.
Proof.
  intros. unfold t_run. rewrite open_check. destruct (carefulb es) eqn:E; auto. apply careful_b in E. rewrite count_check by auto. cbn [andb]. apply forallb_forall. intros d _. rewrite glob_check by auto. cbn [andb].
  apply forallb_forall. intros f _. rewrite exists_check, marked_check by auto. reflexivity.
Qed.
Theorem C66_check_split : forall name, t_split name = true.
Proof.
  intros name. unfold t_split. destruct (C66_split_total name) as (d & f & N & U). destruct (split_name name) as [d' f'] eqn:E.
  assert (X : d' = d /\ f' = f).
  { pose proof (split_named name d f N) as X. rewrite E in X. injection X as -> ->. auto. }
  destruct X as [-> ->]. assert (S : forall g, no_slash g -> existsb (Ascii.eqb c_slash) g = false).
  { intros g H. destruct (existsb (Ascii.eqb c_slash) g) eqn:X; auto. apply existsb_exists in X. destruct X as (c & I & Y). apply Ascii.eqb_eq in Y. subst c. destruct H. exact I. }
  assert (R : forall g, str_eqb g g = true) by (intros g; apply str_eqb_eq; reflexivity).
  destruct N as [f N | f N | d f D N]; rewrite (S f N); cbn [negb andb].
  - rewrite R. apply R.
  - assert (X : str_eqb (c_slash :: f) f = false). { apply str_eqb_neq. intros X. apply (f_equal (@length _)) in X. cbn in X. lia. } rewrite X, !R. reflexivity.
  - assert (X : str_eqb (d ++ c_slash :: f) f = false). { apply str_eqb_neq. intros X. apply (f_equal (@length _)) in X. rewrite app_length in X. cbn in X. lia. } rewrite X, R.
    destruct (str_eqb d []) eqn:Z; [apply str_eqb_eq in Z; congruence|]. cbn [negb andb]. rewrite orb_true_r. reflexivity.
Qed.
Lemma runs_follow l : runs_hold l = true.
Proof. apply forallb_forall. intros s _. unfold one_run. repeat match goal with |- context [let '(_, _) := ?x in _] => destruct x end. apply C66_check. Qed.
Lemma splits_follow l : splits_hold l = true.
Proof. apply forallb_forall. intros s _. apply C66_check_split. Qed.
Print Assumptions C66_check.
Print Assumptions C66_check_split.
