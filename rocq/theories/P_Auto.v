From Coq Require Import Sorted.
From Verif Require Import Base M_Implicit S_Implicit P_Implicit P_Implicit2 M_Auto S_Auto.

(** ** Names *)

Lemma from_paren_iff : forall n m, from_paren n = Some m <-> exists a, n = a ++ c_lparen :: m /\ ~ In c_lparen a.
Proof.
  induction n as [|c n IH]; intros m; cbn [from_paren]; [split; [discriminate|intros (a & E & _); destruct a; discriminate]|].
  destruct (c =?c c_lparen) eqn:E.
  - apply eqc_true in E. subst c. split.
    + intros H. injection H as <-. exists []. split; [reflexivity|intros []].
    + intros ([|x a] & H & N); [injection H as ->; reflexivity|]. injection H as <- H. exfalso. apply N. left. reflexivity.
  - rewrite IH. split.
    + intros (a & -> & N). exists (c :: a). split; [reflexivity|]. intros [K|K]; [subst c; rewrite eqc_refl in E; discriminate|exact (N K)].
    + intros ([|x a] & H & N); [injection H as -> _; rewrite eqc_refl in E; discriminate|]. injection H as <- ->. exists a. split; [reflexivity|]. intros K. apply N. right. exact K.
Qed.
Lemma ar_name_iff : forall n, ar_name n = true <-> member_reference n.
Proof.
  intros [|c n]; [split; [discriminate|intros (a & m & E & _); destruct a; discriminate]|]. unfold ar_name. destruct (c =?c c_lparen) eqn:E.
  { apply eqc_true in E. subst c. split; [discriminate|]. intros ([|x a] & m & H & NE & N & _); [congruence|]. injection H as <- _. exfalso. apply N. left. reflexivity. }
  apply eqc_false in E. destruct (from_paren n) as [m|] eqn:F.
  - apply from_paren_iff in F. destruct F as (a & -> & N). rewrite andb_true_iff, Nat.leb_le. split.
    + intros [L K]. apply eqc_true in K. destruct m as [|m0 m'] using rev_ind; [cbn in L; lia|]. clear IHm'. rewrite last_last in K. subst m0. rewrite app_length in L. cbn in L.
      exists (c :: a), m'. split; [reflexivity|]. split; [discriminate|]. split; [intros [K|K]; [exact (E K)|exact (N K)]|intros ->; cbn in L; lia].
    + intros ([|x b] & m' & H & NE & NB & NM); [congruence|]. injection H as <- H.
      assert (X : forall (a b : str) p q, a ++ c_lparen :: p = b ++ c_lparen :: q -> ~ In c_lparen a -> ~ In c_lparen b -> p = q).
      { induction a0 as [|y a0 IHa]; intros [|z b0] p q K K1 K2; cbn in K; injection K; intros; subst; auto.
        - exfalso. apply K2. left. reflexivity.
        - exfalso. apply K1. left. reflexivity.
        - apply (IHa b0); auto; [intros J; apply K1; right; exact J|intros J; apply K2; right; exact J]. }
      assert (m = m' ++ [c_rparen]) as -> by (apply (X a b); [exact H|exact N|intros J; apply NB; right; exact J]). rewrite app_length, last_last, eqc_refl. cbn. split; [destruct m'; [congruence|cbn; lia]|reflexivity].
  - split; [discriminate|]. intros ([|x b] & m' & H & NE & NB & NM); [congruence|]. injection H as <- H. assert (K : from_paren n = Some (m' ++ [c_rparen])).
    { apply from_paren_iff. exists b. split; [exact H|]. intros J. apply NB. right. exact J. } congruence.
Qed.
Lemma shown_listed : forall n, listed_as n (shown n).
Proof.
  intros n. unfold shown. destruct (ar_name n) eqn:E.
  - apply ar_name_iff in E. destruct E as (a & m & -> & NE & N & NM). replace (from_paren (a ++ c_lparen :: m ++ [c_rparen])) with (Some (m ++ [c_rparen])); [rewrite removelast_last; apply la_member; assumption|].
    symmetry. apply from_paren_iff. exists a. auto.
  - apply la_plain. intros K. apply ar_name_iff in K. congruence.
Qed.
Lemma shown_length : forall n, length (shown n) <= length n.
Proof. intros n. destruct (shown_listed n) as [a m NE N NM|m N]; [rewrite !app_length; cbn; rewrite app_length; cbn; lia|lia]. Qed.

(** ** Places *)

Lemma visible_iff : forall d, visible d = true <-> a_2nd d = false /\ a_ignored d = false.
Proof. intros d. unfold visible. rewrite andb_true_iff, !negb_true_iff. reflexivity. Qed.

Lemma first_with_iff : forall n ds i j d, first_with n ds i = Some (j, d) <->
  exists k, j = i + k /\ at_place ds k d /\ a_name d = n /\ forall k' d', k' < k -> at_place ds k' d' -> a_name d' <> n.
Proof.
  intros n. induction ds as [|e ds IH]; intros i j d; cbn [first_with].
  { split; [discriminate|]. intros (k & _ & (H & _) & _). destruct k; discriminate. }
  destruct (visible e && str_eqb (a_name e) n) eqn:E.
  - apply andb_true_iff in E. destruct E as [V E]. apply visible_iff in V. apply str_eqb_eq in E. split.
    + intros H. injection H as <- <-. exists 0. split; [lia|]. split; [split; [reflexivity|exact V]|]. split; [exact E|]. intros k' d' K. lia.
    + intros ([|k] & -> & A & N & F); [destruct A as [A _]; injection A as <-; rewrite Nat.add_0_r; reflexivity|]. exfalso. apply (F 0 e); [lia|split; [reflexivity|exact V]|exact E].
  - rewrite IH. split.
    + intros (k & -> & A & N & F). exists (S k). split; [lia|]. split; [exact A|]. split; [exact N|]. intros [|k'] d' K A'; [|apply (F k'); [lia|exact A']].
      intros N'. destruct A' as (A1 & A2). injection A1 as <-. apply visible_iff in A2. rewrite A2, N', str_eqb_refl in E. discriminate.
    + intros ([|k] & -> & A & N & F).
      * exfalso. destruct A as (A1 & A2). injection A1 as <-. apply visible_iff in A2. rewrite A2, N, str_eqb_refl in E. discriminate.
      * exists k. split; [lia|]. split; [exact A|]. split; [exact N|]. intros k' d' K A'. apply (F (S k')); [lia|exact A'].
Qed.
Lemma first_with_some : forall ds k d, at_place ds k d -> exists j e, first_with (a_name d) ds 0 = Some (j, e) /\ j <= k.
Proof.
  assert (G : forall ds i k d, at_place ds k d -> exists j e, first_with (a_name d) ds i = Some (j, e) /\ j <= i + k).
  { induction ds as [|x ds IH]; intros i k d (H & V); [destruct k; discriminate|]. cbn [first_with]. destruct (visible x && str_eqb (a_name x) (a_name d)) eqn:E; [exists i, x; split; [reflexivity|lia]|].
    destruct k as [|k]; [injection H as ->; apply visible_iff in V; rewrite V, str_eqb_refl in E; discriminate|]. destruct (IH (S i) k d (conj H V)) as (j & e & F & L). exists j, e. split; [exact F|lia]. }
  intros ds k d H. destruct (G ds 0 k d H) as (j & e & F & L). exists j, e. auto.
Qed.
Lemma first_with_first : forall ds n j d, first_with n ds 0 = Some (j, d) <-> is_first ds j d /\ a_name d = n.
Proof.
  intros ds n j d. rewrite first_with_iff. unfold is_first. split.
  - intros (k & -> & A & N & F). split; [|exact N]. split; [exact A|]. intros k' d' K A'. rewrite N. exact (F k' d' K A').
  - intros [[A F] N]. exists j. split; [reflexivity|]. split; [exact A|]. split; [exact N|]. intros k' d' K A'. rewrite <- N. exact (F k' d' K A').
Qed.

(** ** The upgrade *)

Lemma set_nth_nth : forall f ds i k, nth_error (set_nth i f ds) k = if k =? i then option_map f (nth_error ds k) else nth_error ds k.
Proof.
  intros f. induction ds as [|d ds IH]; intros i k; [destruct i, k; cbn; try reflexivity; destruct (k =? i); reflexivity|]. cbn [set_nth]. destruct i as [|i], k as [|k]; try reflexivity. cbn [nth_error Nat.eqb]. apply IH.
Qed.
Definition erased (ds : list adep) : list adep := map no_order ds.
Lemma erased_set : forall ds i, erased (set_nth i no_order ds) = erased ds.
Proof. induction ds as [|d ds IH]; intros [|i]; cbn [set_nth erased map]; try reflexivity. f_equal. apply IH. Qed.
Lemma erased_upgrade_at : forall ds i, erased (upgrade_at ds i) = erased ds.
Proof.
  intros ds i. unfold upgrade_at. destruct (nth_error ds i) as [d|]; [|reflexivity]. destruct (visible d); [|reflexivity]. destruct (first_with (a_name d) ds 0) as [[j hd]|]; [|reflexivity].
  destruct ((j <? i) && negb (Bool.eqb (a_order d) (a_order hd))); [rewrite !erased_set|]; reflexivity.
Qed.
Lemma erased_place : forall ds s, erased s = erased ds -> forall k d, at_place s k d -> exists d', at_place ds k d' /\ no_order d' = no_order d.
Proof.
  intros ds s E k d (H & V). assert (K : nth_error (erased ds) k = Some (no_order d)) by (rewrite <- E; unfold erased; rewrite nth_error_map, H; reflexivity).
  unfold erased in K. rewrite nth_error_map in K. destruct (nth_error ds k) as [d'|] eqn:D; [|discriminate]. cbn in K. injection K as K1 K2 K3 K4. exists d'. split; [split; [exact D|rewrite K3, K4; exact V]|].
  unfold no_order. rewrite K1, K2, K3, K4. reflexivity.
Qed.
Lemma erased_names : forall d d', no_order d = no_order d' -> a_name d = a_name d' /\ a_changed d = a_changed d'.
Proof. intros d d' H. injection H. auto. Qed.
Lemma erased_first : forall ds s, erased s = erased ds -> forall j d, is_first s j d -> exists d', is_first ds j d' /\ no_order d' = no_order d.
Proof.
  intros ds s E j d [A F]. destruct (erased_place ds s E j d A) as (d' & A' & N). exists d'. split; [|exact N]. split; [exact A'|]. intros k e K B. destruct (erased_place s ds (eq_sym E) k e B) as (e' & B' & N').
  destruct (erased_names _ _ N) as [-> _]. destruct (erased_names _ _ N') as [<- _]. exact (F k e' K B').
Qed.

Definition stage (ds : list adep) (i : nat) : list adep := fold_left upgrade_at (seq 0 i) ds.
Lemma stage_S : forall ds i, stage ds (S i) = upgrade_at (stage ds i) i.
Proof. intros ds i. unfold stage. rewrite seq_S, fold_left_app. reflexivity. Qed.
Lemma stage_inv : forall ds i, erased (stage ds i) = erased ds /\ (forall k, i <= k -> nth_error (stage ds i) k = nth_error ds k) /\
  forall j d, is_first (stage ds i) j d -> a_order d = true <-> forall k e, (k < i \/ k = j) -> at_place ds k e -> a_name e = a_name d -> a_order e = true.
Proof.
  intros ds. induction i as [|i (I1 & I2 & I3)].
  { split; [reflexivity|]. split; [reflexivity|]. intros j d ((A & V) & F). change (stage ds 0) with ds in A. split.
    - intros O k e [K| ->] (B & _) _; [lia|]. congruence.
    - intros H. apply (H j d); [right; reflexivity|split; assumption|reflexivity]. }
  rewrite stage_S. split; [rewrite erased_upgrade_at; exact I1|]. split.
  { intros k K. unfold upgrade_at. destruct (nth_error (stage ds i) i) as [d|]; [|apply I2; lia]. destruct (visible d); [|apply I2; lia]. destruct (first_with (a_name d) (stage ds i) 0) as [[j hd]|]; [|apply I2; lia].
    destruct ((j <? i) && negb (Bool.eqb (a_order d) (a_order hd))) eqn:C; [|apply I2; lia]. apply andb_true_iff in C. destruct C as [C _]. apply Nat.ltb_lt in C. rewrite !set_nth_nth.
    replace (k =? i) with false by (symmetry; apply Nat.eqb_neq; lia). replace (k =? j) with false by (symmetry; apply Nat.eqb_neq; lia). apply I2. lia. }
  intros j d FJ. assert (EU : erased (upgrade_at (stage ds i) i) = erased (stage ds i)) by apply erased_upgrade_at.
  destruct (erased_first (stage ds i) _ EU j d FJ) as (d0 & FD & ND). destruct (erased_names _ _ ND) as [NM _].
  (* what the step does at place j *)
  assert (KEEP : upgrade_at (stage ds i) i = stage ds i -> (forall e, at_place ds i e -> a_name e = a_name d -> i = j \/ (a_order d = true -> a_order e = true)) ->
                 a_order d = true <-> forall k e, (k < S i \/ k = j) -> at_place ds k e -> a_name e = a_name d -> a_order e = true).
  { intros EQ H. rewrite EQ in FJ. specialize (I3 j d FJ). split.
    - intros O k e K B N. destruct (Nat.eq_dec k i) as [->|NE]; [|apply (proj1 I3 O k e); [lia|exact B|exact N]]. destruct (H e B N) as [->|H']; [apply (proj1 I3 O j e); [right; reflexivity|exact B|exact N]|exact (H' O)].
    - intros K. apply I3. intros k e K' B N. apply (K k e); [lia|exact B|exact N]. }
  unfold upgrade_at in KEEP, FJ. destruct (nth_error (stage ds i) i) as [di|] eqn:DI.
  2:{ apply KEEP; [reflexivity|]. intros e (B & _) _. rewrite (I2 i (le_n i)) in DI. congruence. }
  destruct (visible di) eqn:VI.
  2:{ apply KEEP; [reflexivity|]. intros e (B & V) _. rewrite (I2 i (le_n i)) in DI. rewrite DI in B. injection B as ->. apply visible_iff in V. congruence. }
  assert (AI : at_place (stage ds i) i di) by (split; [exact DI|apply visible_iff; exact VI]). assert (AI0 : at_place ds i di) by (split; [rewrite <- (I2 i (le_n i)); exact DI|apply visible_iff; exact VI]).
  destruct (first_with (a_name di) (stage ds i) 0) as [[j0 hd]|] eqn:FW.
  2:{ destruct (first_with_some _ _ _ AI) as (? & ? & K & _). congruence. }
  apply first_with_first in FW. destruct FW as [FH NH].
  assert (SAME : a_name di = a_name d -> j = j0 /\ d0 = hd).
  { intros N. assert (j = j0).
    { destruct FD as [FD1 FD2], FH as [FH1 FH2]. destruct (Nat.lt_trichotomy j j0) as [L|[L|L]]; [|exact L|]; exfalso; [apply (FH2 j d0 L FD1)|apply (FD2 j0 hd L FH1)]; congruence. }
    subst j0. split; [reflexivity|]. destruct FD as [[A _] _], FH as [[B _] _]. congruence. }
  destruct ((j0 <? i) && negb (Bool.eqb (a_order di) (a_order hd))) eqn:C.
  - (* both are normal now *)
    apply andb_true_iff in C. destruct C as [C1 C2]. apply Nat.ltb_lt in C1. apply negb_true_iff in C2. apply eqb_false_iff in C2.
    assert (DJ : nth_error (set_nth i no_order (set_nth j0 no_order (stage ds i))) j = Some d) by exact (proj1 (proj1 FJ)). rewrite !set_nth_nth in DJ.
    assert (NJI : j <> i). { intros ->. destruct FD as [FD1 FD2]. assert (d0 = di) by (destruct FD1 as [X _]; congruence). subst d0. apply (FD2 j0 hd C1 (proj1 FH)). exact NH. }
    replace (j =? i) with false in DJ by (symmetry; apply Nat.eqb_neq; exact NJI). destruct (j =? j0) eqn:EJ.
    + apply Nat.eqb_eq in EJ. subst j0. destruct FH as [[HJ HV] HF]. rewrite HJ in DJ. cbn in DJ. injection DJ as <-. cbn [no_order a_order a_name]. split; [discriminate|]. intros H. exfalso. apply C2.
      rewrite (H i di); [|left; lia|exact AI0|symmetry; exact NH]. symmetry. apply (I3 j hd (conj (conj HJ HV) HF)). intros k e K B N. apply (H k e); [lia|exact B|exact N].
    + assert (ND' : a_name di <> a_name d) by (intros N; destruct (SAME N) as [-> _]; rewrite Nat.eqb_refl in EJ; discriminate).
      assert (FJ' : is_first (stage ds i) j d). { destruct FD as [[X Y] Z]. rewrite X in DJ. injection DJ as ->. split; [split; assumption|exact Z]. }
      specialize (I3 j d FJ'). rewrite I3. split; intros H k e K B N; apply (H k e); try exact B; try exact N; try lia.
      destruct K as [K| ->]; [|right; reflexivity]. destruct (Nat.eq_dec k i) as [->|NE]; [|lia]. exfalso. apply ND'. rewrite <- N. destruct B as [B _], AI0 as [AI0 _]. congruence.
  - apply KEEP; [reflexivity|]. intros e B N. assert (e = di) by (destruct B as [B _], AI0 as [AI0 _]; congruence). subst e. destruct (SAME N) as [-> ->]. destruct (j0 <? i) eqn:L.
    + right. intros O. cbn [andb] in C. apply negb_false_iff in C. apply eqb_prop in C. rewrite C.
      destruct FJ as [[X _] _]. destruct FH as [[Y _] _]. congruence.
    + left. apply Nat.ltb_ge in L. destruct (first_with_some _ _ _ AI) as (j' & e' & K & L'). assert (j' = j0).
      { apply first_with_first in K. destruct K as [K1 K2]. destruct FH as [FH1 FH2], K1 as [K1 K3]. destruct (Nat.lt_trichotomy j' j0) as [M|[M|M]]; [|exact M|]; exfalso; [apply (FH2 j' e' M K1)|apply (K3 j0 hd M FH1)]; congruence. }
      lia.
Qed.
Lemma upgrade_spec : forall ds, erased (upgrade ds) = erased ds /\ forall j d, is_first (upgrade ds) j d -> a_order d = false <-> normal ds (a_name d).
Proof.
  intros ds. destruct (stage_inv ds (length ds)) as (I1 & _ & I3). split; [exact I1|]. intros j d F. specialize (I3 j d F). unfold normal. split.
  - intros O. destruct (existsb (fun e => visible e && str_eqb (a_name e) (a_name d) && negb (a_order e)) ds) eqn:X.
    + apply existsb_exists in X. destruct X as (e & E & X). apply andb_true_iff in X. destruct X as [X X3]. apply andb_true_iff in X. destruct X as [X1 X2]. apply In_nth_error in E. destruct E as [k E].
      exists k, e. split; [split; [exact E|apply visible_iff; exact X1]|]. split; [apply str_eqb_eq; exact X2|apply negb_true_iff; exact X3].
    + exfalso. rewrite O in I3. apply diff_false_true. apply I3. intros k e _ (B & V) N. destruct (a_order e) eqn:OE; [reflexivity|]. exfalso. rewrite <- not_true_iff_false in X. apply X. apply existsb_exists. exists e.
      split; [exact (nth_error_In _ _ B)|]. apply visible_iff in V. rewrite V, N, str_eqb_refl, OE. reflexivity.
  - intros (k & e & B & N & O). destruct (a_order d) eqn:OD; [|reflexivity]. rewrite <- O. symmetry. apply (proj1 I3 eq_refl k e); [left; apply nth_error_Some; destruct B as [B _]; rewrite B; discriminate|exact B|exact N].
Qed.
