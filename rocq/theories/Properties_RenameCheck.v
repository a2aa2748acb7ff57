(** The tests of S_RenameCheck succeed for all inputs, by the theorems of C69; so those of W_Rename must. *)
From Coq Require Import Lia String List NArith.
From Verif Require Import Base M_Rename S_Rename P_Rename Properties_Rename S_RenameCheck W_Random W_Rename.
Open Scope string_scope.
Open Scope list_scope.
Open Scope nat_scope.

Lemma opt_refl a : opt_eqb a a = true.
Proof. destruct a; [apply Nat.eqb_refl|reflexivity]. Qed.
Lemma opt_eq a b : opt_eqb a b = true <-> a = b.
Proof. destruct a, b; cbn [opt_eqb]; rewrite ?Nat.eqb_eq; split; congruence. Qed.
Lemma ostr_refl a : ostr_eqb a a = true.
Proof. destruct a; [apply str_eqb_refl|reflexivity]. Qed.
Lemma strs_refl a : strs_eqb a a = true.
Proof. induction a; cbn [strs_eqb]; auto. rewrite str_eqb_refl. exact IHa. Qed.
Lemma others_refl a : others_eqb a a = true.
Proof. unfold others_eqb. rewrite !Nat.eqb_refl, !Bool.eqb_reflx. reflexivity. Qed.
Lemma flags_refl a : flags_eqb a a = true.
Proof. apply forallb_forall. intros p _. apply Bool.eqb_reflx. Qed.
Lemma file_refl a b : (forall to, a = with_hname b to -> file_eqb a b = true) /\ (a = b -> file_eqb a b = true).
Proof.
  split; [intros to ->|intros ->]; unfold file_eqb; cbn [with_hname f_name f_cmds f_deps f_colon f_prev f_renamed f_mtime f_before f_builtin f_flags f_others];
    rewrite !str_eqb_refl, !opt_refl, strs_refl, !Nat.eqb_refl, Bool.eqb_reflx, flags_refl, others_refl; reflexivity.
Qed.
Lemma memb_in x l : memb x l = true <-> In x l.
Proof. unfold memb. rewrite existsb_exists. split; [intros (y & I & E); apply Nat.eqb_eq in E; congruence|intros I; exists x; rewrite Nat.eqb_refl; auto]. Qed.
Lemma listed_in l n i : listed l n = Some i -> In (n, i) l.
Proof. unfold listed. destruct (find _ l) as [[m j]|] eqn:F; [|discriminate]. intros H. injection H as <-. apply find_some in F. destruct F as [I E]. apply str_eqb_eq in E. cbn [fst] in E. subst. exact I. Qed.
Lemma chain_later n h : forall d es, chain n h d = Some es -> (forall e, In e es <-> later h d e) /\ exists e, later h d e /\ f_prev (h e) = None.
Proof.
  induction n as [|n IH]; intros d es H; [discriminate|]. cbn [chain] in H. destruct (f_prev (h d)) as [p|] eqn:P.
  - destruct (chain n h p) as [r|] eqn:C; [|discriminate]. injection H as <-. destruct (IH _ _ C) as [A (z & Z1 & Z2)]. split.
    + intros e. cbn [In]. rewrite A. split; [intros [<-|L]; [apply lt_here|eapply lt_next; eauto]|]. intros L. inversion L as [|? q ? Q L']; subst; [auto|]. right. congruence.
    + exists z. split; [eapply lt_next; eauto|exact Z2].
  - injection H as <-. split.
    + intros e. cbn [In]. split; [intros [<-|[]]; apply lt_here|]. intros L. inversion L; subst; [auto|congruence].
    + exists d. split; [apply lt_here|exact P].
Qed.
Lemma entries_of_spec n h i es : entries_of n h i = Some es -> (forall e, In e es <-> entry_of h i e) /\ forall d, f_colon (h i) = Some d -> exists e, later h d e /\ f_prev (h e) = None.
Proof.
  unfold entries_of, entry_of. destruct (f_colon (h i)) as [d|]; intros H.
  - apply chain_later in H. destruct H as [A B]. split; [|intros d' D; injection D as <-; exact B]. intros e. rewrite A. split; [eauto|intros (d' & D & L); injection D as <-; exact L].
  - injection H as <-. split; [|discriminate]. intros e. split; [intros []|intros (d & D & _); discriminate].
Qed.
Lemma soundb_sound n h l : soundb n h l = true -> sound (mkstate h (listed l)) /\ forall m i, listed l m = Some i -> exists es, entries_of n h i = Some es.
Proof.
  intros H. unfold soundb in H. rewrite forallb_forall in H.
  assert (G : forall m i, listed l m = Some i -> f_hname (h i) = m /\ f_renamed (h i) = None /\ exists es, entries_of n h i = Some es /\ forall e, In e es -> e = i \/ ~ In e (map snd l)).
  { intros m i L. apply listed_in in L. specialize (H _ L). cbn [fst snd] in H. rewrite !andb_true_iff in H. destruct H as ((A & B) & C). apply str_eqb_eq in A. split; [exact A|]. split; [destruct (f_renamed (h i)); [discriminate|reflexivity]|].
    destruct (entries_of n h i) as [es|]; [|discriminate]. exists es. split; [reflexivity|]. rewrite forallb_forall in C. intros e I. specialize (C e I). apply orb_true_iff in C. destruct C as [C|C]; [left; apply Nat.eqb_eq; exact C|right]. intros X. apply memb_in in X. rewrite X in C. discriminate. }
  split; [split; cbn [heap table]|].
  - intros m i L. destruct (G _ _ L) as (A & B & _). auto.
  - intros m i d e L D La. destruct (G _ _ L) as (_ & _ & es & E & F). apply entries_of_spec in E. destruct E as [E _]. assert (I : In e es) by (apply E; exists d; auto). destruct (F _ I) as [X|X]; [auto|]. right. intros m' M. apply X. apply listed_in in M. apply in_map_iff. exists (m', e). auto.
  - intros m i L. destruct (G _ _ L) as (_ & _ & es & E & _). eauto.
Qed.
Lemma follow_resolves n h : forall x y, follow n h x = Some y -> resolves h x y.
Proof.
  induction n as [|n IH]; intros x y; cbn [follow]; destruct (f_renamed (h x)) as [z|] eqn:R; try discriminate; try (intros Q; injection Q as <-; apply rs_here; exact R). intros F. eapply rs_next; eauto.
Qed.
Section Check.
  Variables (n : nat) (h : nat -> file) (l : list (str * nat)) (i : nat) (to : str).
  Variables (names vars : list str) (addrs : list nat).
  Hypothesis U : usable n h l i to = true.
  Let s := mkstate h (listed l).
  Lemma u_all : sound s /\ known s i /\ f_hname (heap s i) <> to /\ exists es, entries_of n h i = Some es.
  Proof.
    unfold usable in U. rewrite !andb_true_iff in U. destruct U as ((A & B) & C). apply soundb_sound in A. destruct A as [A E]. apply opt_eq in B. split; [exact A|]. split; [exact B|]. split; [|eauto]. cbn [s heap]. intros X. rewrite X, str_eqb_refl in C. discriminate.
  Qed.
  Lemma k_lookup : t_lookup n h l i to names addrs = true.
  Proof.
    destruct u_all as (S & K & N & _). unfold t_lookup. fold s. destruct (rehash_file n s i to) as [s' w| | |] eqn:H; try reflexivity. destruct (C69_lookup _ _ _ _ _ _ S K N H) as (A & B & C & D & _). unfold target_of in *. cbn [s heap table] in *.
    rewrite A, B, !opt_refl. cbn [andb]. apply andb_true_iff. split; apply forallb_forall.
    - intros m _. destruct (str_eqb m to) eqn:E1; [reflexivity|]. destruct (str_eqb m (f_hname (h i))) eqn:E2; [reflexivity|]. cbn [orb]. rewrite C; [apply opt_refl| |]; intros ->; rewrite str_eqb_refl in *; discriminate.
    - intros x _. destruct (follow n h x) as [y|] eqn:F; [|reflexivity]. apply follow_resolves, D in F. destruct (follow (n + n) (heap s') x) as [z|] eqn:G; [|reflexivity]. apply follow_resolves in G. apply Nat.eqb_eq. eapply resolves_unique; eauto.
  Qed.
  Lemma chain_entries : forall m g d es, chain m g d = Some es -> entries m g (Some d) = Some es.
  Proof.
    induction m as [|m IH]; intros g d es C; [discriminate|]. cbn [chain entries] in *. destruct (f_prev (g d)) as [p|]; [|injection C as <-; destruct m; reflexivity]. destruct (chain m g p) as [r|] eqn:E; [|discriminate]. rewrite (IH _ _ _ E). exact C.
  Qed.
  Lemma entries_ext : forall m g g', (forall x, f_prev (g x) = f_prev (g' x)) -> forall o, entries m g o = entries m g' o.
  Proof. induction m as [|m IH]; intros g g' E [d|]; cbn [entries]; auto. rewrite E, (IH g g' E). reflexivity. Qed.
  Lemma k_safe : t_safe n h l i to = true.
  Proof.
    destruct u_all as (S & K & N & es & E). unfold t_safe. fold s. destruct (rehash_file n s i to) as [s' w| | |] eqn:H; try reflexivity; [destruct (C69_safe n s i to S K H)|]. exfalso. revert H. apply not_endless; auto.
    rewrite (entries_ext n _ h) by (intros x; apply (prev0 s i)). cbn [s heap]. unfold entries_of in E. destruct (f_colon (h i)) as [d|]; [rewrite (chain_entries _ _ _ _ E); discriminate|]. destruct n; discriminate.
  Qed.
  Lemma k_fatal : t_fatal n h l i to = true.
  Proof.
    destruct u_all as (S & K & N & _). pose proof k_safe as NE. unfold t_safe in NE. unfold t_fatal. fold s. fold s in NE. assert (NE' : rehash_file n s i to <> Endless) by (intros X; rewrite X in NE; discriminate). pose proof (C69_fatal n s i to S K N NE') as F. cbn [s heap table] in F.
    assert (G : (exists k, listed l to = Some k /\ ((f_colon (h k) <> None /\ w_target (f_flags (h i)) = true /\ f_colon (h i) = None) \/ (f_colon (h k) = None /\ f_colon (h i) <> None /\ w_target (f_flags (h k)) = true))) <-> match listed l to with Some k => stops (h k) (h i) | None => false end = true).
    { destruct (listed l to) as [k|]; [|split; [intros (k & X & _); discriminate|discriminate]]. unfold stops. split.
      - intros (k' & X & Y). injection X as <-. destruct Y as [(A & B & C) | (A & B & C)]; rewrite ?A, ?B, ?C; [destruct (f_colon (h k)); [reflexivity|congruence]|destruct (f_colon (h i)); [apply orb_true_r|congruence]].
      - intros X. exists k. split; [reflexivity|]. apply orb_true_iff in X. rewrite !andb_true_iff in X. destruct X as [((A & B) & C) | ((A & B) & C)]; [left|right]; destruct (f_colon (h k)), (f_colon (h i)); try discriminate; repeat split; auto; congruence. }
    rewrite G in F. destruct (match listed l to with Some k => stops (h k) (h i) | None => false end).
    - rewrite (proj2 F eq_refl). reflexivity.
    - destruct (rehash_file n s i to) eqn:H; try reflexivity. apply proj1 in F. specialize (F eq_refl). discriminate.
  Qed.
  Lemma k_merge : t_merge n h l i to vars = true.
  Proof.
    destruct u_all as (S & K & N & _). unfold t_merge. fold s. destruct (rehash_file n s i to) as [s' w| | |] eqn:H; try reflexivity. destruct (listed l to) as [k|] eqn:T; [|reflexivity].
    destruct (C69_merge _ _ _ _ _ _ _ S K N H T) as (A1 & A2 & A3 & A4 & A5 & A6 & A7 & A8 & A9 & A10 & A11). cbn [s heap] in *. rewrite A1, A2, A3, A4, A9, A10, strs_refl, opt_refl, !str_eqb_refl, Nat.eqb_refl, others_refl, (proj2 (Nat.leb_le _ _) A6), (proj2 (Nat.leb_le _ _) A7). cbn [andb]. rewrite !andb_true_r.
    assert (FL : forallb (fun p : flags -> bool => Bool.eqb (p (f_flags (heap s' k))) (p (f_flags (h k)) || p (f_flags (h i)))) all_flags = true) by (apply forallb_forall; intros p I; rewrite (A11 p I); apply Bool.eqb_reflx).
    rewrite FL. rewrite ?andb_true_r. apply andb_true_iff. split.
    - apply orb_true_iff. destruct (apart (f_vars (h k)) (f_vars (h i))) eqn:AP; [right|left; reflexivity]. apply forallb_forall. intros v _. rewrite A5.
      + unfold seen. apply ostr_refl.
      + intros p q r V I Q. rewrite V in AP. unfold apart in AP. cbn [forallb] in AP. apply andb_true_iff in AP. destruct AP as [AP _]. rewrite negb_true_iff in AP. apply not_true_iff_false in AP. apply AP, memb_in, in_map_iff. exists p. auto.
    - destruct A8 as [-> | ->]; rewrite Nat.eqb_refl; [reflexivity|apply orb_true_r].
  Qed.
  Lemma k_frame : t_frame n h l i to addrs = true.
  Proof.
    destruct u_all as (S & K & N & es & E). unfold t_frame. fold s. destruct (rehash_file n s i to) as [s' w| | |] eqn:H; try reflexivity. rewrite E. apply entries_of_spec in E. destruct E as [E _]. apply forallb_forall. intros j _.
    destruct (Nat.eqb_spec j i) as [|JI]; [reflexivity|]. destruct (opt_eqb (listed l to) (Some j)) eqn:T; [reflexivity|]. cbn [orb]. assert (T' : table s to <> Some j) by (cbn [s table]; intros X; rewrite X, opt_refl in T; discriminate).
    destruct (C69_frame _ _ _ _ _ _ _ S K N H JI T') as [A B]. cbn [s heap] in A, B. destruct (memb j es) eqn:M.
    - apply memb_in, E in M. specialize (A M). rewrite (proj1 (file_refl _ _) to A), A. cbn [andb with_hname f_hname]. apply str_eqb_refl.
    - assert (M' : ~ entry_of h i j) by (intros X; apply E, memb_in in X; congruence). specialize (B M'). rewrite (proj2 (file_refl _ _) B), B. apply str_eqb_refl.
  Qed.
  Lemma k_warning : t_warning n h l i to = true.
  Proof.
    destruct u_all as (S & K & N & _). unfold t_warning. fold s. destruct (rehash_file n s i to) as [s' w| | |] eqn:H; try reflexivity. destruct (listed l to) as [k|] eqn:T; [|reflexivity]. pose proof (C69_warning _ _ _ _ _ _ _ S K N H T) as W. cbn [s heap] in W.
    destruct (f_cmds (h i)) as [a|], (f_cmds (h k)) as [b|]; destruct w as [w|]; cbn [is_some]; try reflexivity.
    all: try (exfalso; destruct (proj1 W) as (x & y & X & Y & _); [discriminate|]; congruence).
    - destruct (Nat.eqb_spec a b); [|reflexivity]. destruct (proj1 W) as (x & y & X & Y & Z); [discriminate|]. congruence.
    - destruct (Nat.eqb_spec a b); [reflexivity|]. exfalso. apply (proj2 W); [|reflexivity]. exists a, b. auto.
  Qed.
  Lemma k_rename : t_rename n h l i to names addrs = true.
  Proof.
    unfold t_rename. fold s. destruct (rename_file n s i to) as [s' w| | |] eqn:H; try reflexivity. destruct (rehash_file n s i to) as [s1 w1| | |] eqn:H1; try reflexivity. destruct (chain n (heap s1) i) as [es|] eqn:C; [|reflexivity]. apply chain_later in C. destruct C as [C _].
    apply andb_true_iff. split; apply forallb_forall.
    - intros j _. destruct (C69_rename _ _ _ _ _ _ j H) as (s2 & E & T & A & B). rewrite H1 in E. injection E as <- <-. destruct (memb j es) eqn:M.
      + apply memb_in, C in M. rewrite (A M). cbn [with_name f_name f_hname]. rewrite !str_eqb_refl. reflexivity.
      + assert (M' : ~ later (heap s1) i j) by (intros X; apply C, memb_in in X; congruence). rewrite (B M'), !str_eqb_refl. reflexivity.
    - intros m _. destruct (C69_rename _ _ _ _ _ _ 0 H) as (s2 & E & T & _). rewrite H1 in E. injection E as <- <-. rewrite T. apply opt_refl.
  Qed.
End Check.
Theorem C69_check : forall n h l i to names vars addrs, t_rehash n h l i to names vars addrs = true.
Proof.
  intros. unfold t_rehash. destruct (usable n h l i to) eqn:U; [|reflexivity]. cbn [negb orb]. rewrite k_lookup, k_safe, k_fatal, k_merge, k_frame, k_warning, k_rename by exact U. reflexivity.
Qed.
Theorem C69_check_vars : forall a b vars, t_vars a b vars = true.
Proof.
  intros a b vars. unfold t_vars. destruct (apart a b && distinct (map fst b)) eqn:E; [|reflexivity]. cbn [negb orb]. apply andb_true_iff in E. destruct E as [E1 E2].
  assert (AP : forall p q, In p a -> In q b -> fst p <> fst q). { intros p q I J Q. unfold apart in E1. rewrite forallb_forall in E1. specialize (E1 q J). rewrite negb_true_iff in E1. apply not_true_iff_false in E1. apply E1, memb_in, in_map_iff. exists p. auto. }
  assert (ND : NoDup (map fst b)). { clear - E2. induction (map fst b) as [|x r IH]; [constructor|]. cbn [distinct] in E2. apply andb_true_iff in E2. destruct E2 as [A B]. constructor; [|auto]. intros I. apply memb_in in I. rewrite I in A. discriminate. }
  apply andb_true_iff. split; apply forallb_forall.
  - intros v _. rewrite C69_variables; [apply ostr_refl|]. intros p q r Q I. apply AP; [exact I|]. rewrite Q. left. reflexivity.
  - intros [j v] F. cbn [fst]. pose proof (C69_freed a b j v AP ND F) as X. destruct (memb j (map fst (merge_lists a b))) eqn:M; [|reflexivity]. apply memb_in in M. destruct (X M).
Qed.
Theorem C69_check_shared : forall l b vars, t_shared l b vars = true.
Proof.
  intros l b vars. unfold t_shared. assert (E : merge_lists (l ++ b) b = l ++ b /\ freed (l ++ b) b = []) by (destruct b; [split; reflexivity|apply C69_shared; discriminate]). destruct E as [-> ->]. rewrite andb_true_r. apply forallb_forall. intros v _. apply ostr_refl.
Qed.
Lemma rehashes_follow l : rehashes_hold l = true.
Proof. apply forallb_forall. intros s _. apply C69_check. Qed.
Lemma vars_follow l : vars_hold l = true.
Proof. apply forallb_forall. intros s _. unfold one_vars. destruct (w_list 0 s) as [a s1]. destruct (w_list 1 s1) as [b s2]. rewrite C69_check_vars. apply C69_check_shared. Qed.
Print Assumptions C69_check.
Print Assumptions C69_check_vars.
Print Assumptions C69_check_shared.
