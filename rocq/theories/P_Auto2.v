From Coq Require Import Sorted.
From Verif Require Import Base M_Implicit S_Implicit P_Implicit5 M_Auto S_Auto P_Auto.

(** ** Selected places *)

Fixpoint sel (g : nat -> adep -> bool) (i : nat) (ds : list adep) : list (nat * adep) :=
  match ds with
  | [] => []
  | d :: ds' => (if g i d then [(i, d)] else []) ++ sel g (S i) ds'
  end.
Lemma sel_in : forall g ds i j d, In (j, d) (sel g i ds) <-> i <= j /\ nth_error ds (j - i) = Some d /\ g j d = true.
Proof.
  intros g. induction ds as [|e ds IH]; intros i j d; cbn [sel]; [split; [intros []|intros (_ & H & _); destruct (j - i); discriminate]|].
  rewrite in_app_iff, IH. split.
  - intros [H|(L & H & G)].
    + destruct (g i e) eqn:G; [|destruct H]. destruct H as [H|[]]. injection H as <- <-. rewrite Nat.sub_diag. auto.
    + split; [lia|]. split; [|exact G]. replace (j - i) with (S (j - S i)) by lia. exact H.
  - intros (L & H & G). destruct (Nat.eq_dec i j) as [->|N].
    + left. rewrite Nat.sub_diag in H. injection H as ->. rewrite G. left. reflexivity.
    + right. split; [lia|]. split; [|exact G]. replace (j - i) with (S (j - S i)) in H by lia. exact H.
Qed.
Lemma sel_sorted : forall g ds i, StronglySorted lt (map fst (sel g i ds)).
Proof.
  intros g. induction ds as [|d ds IH]; intros i; cbn [sel map]; [constructor|]. rewrite map_app. destruct (g i d); [|apply IH]. cbn [map app fst]. constructor; [apply IH|].
  apply Forall_forall. intros j H. apply in_map_iff in H. destruct H as ([j' d'] & <- & H). apply sel_in in H. cbn. lia.
Qed.
Definition word (d : adep) : str := shown (a_name d) ++ [c_sp].
Definition words_of (l : list (nat * adep)) : str := flat_map (fun x => word (snd x)) l.
Definition total (l : list adep) : nat := list_sum (map (fun d => length (shown (a_name d)) + 1) l).
Lemma words_length : forall l, length (words_of l) = total (map snd l).
Proof. induction l as [|[j d] l IH]; [reflexivity|]. unfold words_of, total in *. cbn [flat_map map list_sum fold_right snd]. rewrite app_length, IH. unfold word. rewrite app_length. reflexivity. Qed.

Lemma kill_spaced : forall size l, 1 <= size -> kill_last size (words_of l) = Some (spaced (map (fun x => shown (a_name (snd x))) l)).
Proof.
  intros size l L. assert (R : removelast (words_of l) = spaced (map (fun x => shown (a_name (snd x))) l)).
  { induction l as [|[j d] l IH]; [reflexivity|]. unfold words_of in *. cbn [flat_map map snd]. destruct l as [|y l].
    - cbn [flat_map map spaced]. rewrite app_nil_r. unfold word. apply removelast_last.
    - rewrite removelast_app; [rewrite IH; unfold word; rewrite <- app_assoc; reflexivity|]. cbn [flat_map]. unfold word. intros K. apply app_eq_nil in K. destruct K as [K _]. apply app_eq_nil in K. destruct K as [_ K]. discriminate. }
  unfold kill_last. destruct (words_of l) eqn:E; [|rewrite R; reflexivity]. rewrite (proj2 (Nat.leb_le 1 size) L). rewrite <- R. reflexivity.
Qed.

Lemma listing_sel : forall ds s g (P : nat -> Prop), erased s = erased ds ->
  (forall j d, nth_error s j = Some d -> g j d = true <-> P j) -> (forall j, P j -> j < length ds) ->
  listing ds P (spaced (map (fun x => shown (a_name (snd x))) (sel g 0 s))).
Proof.
  intros ds s g P E G B. exists (map fst (sel g 0 s)), (map (fun x => shown (a_name (snd x))) (sel g 0 s)). split; [apply sel_sorted|]. split; [|split; [|reflexivity]].
  - intros j. rewrite in_map_iff. split.
    + intros ([j' d] & <- & H). apply sel_in in H. destruct H as (_ & H & K). rewrite Nat.sub_0_r in H. apply (G j' d H). exact K.
    + intros H. assert (L : j < length s). { replace (length s) with (length ds); [exact (B j H)|]. assert (X : length (erased s) = length (erased ds)) by (rewrite E; reflexivity). unfold erased in X. rewrite !map_length in X. auto. }
      destruct (nth_error s j) as [d|] eqn:D; [|apply nth_error_None in D; lia]. exists (j, d). split; [reflexivity|]. apply sel_in. rewrite Nat.sub_0_r. split; [lia|]. split; [exact D|]. apply (G j d D). exact H.
  - assert (X : forall j d, In (j, d) (sel g 0 s) -> exists d', nth_error ds j = Some d' /\ listed_as (a_name d') (shown (a_name d))).
    { intros j d H. apply sel_in in H. destruct H as (_ & H & _). rewrite Nat.sub_0_r in H. assert (K : nth_error (erased ds) j = Some (no_order d)) by (rewrite <- E; unfold erased; rewrite nth_error_map, H; reflexivity).
      unfold erased in K. rewrite nth_error_map in K. destruct (nth_error ds j) as [d'|]; [|discriminate]. cbn in K. injection K as K _ _ _. exists d'. split; [reflexivity|]. rewrite K. apply shown_listed. }
    induction (sel g 0 s) as [|[j d] l IH]; cbn [map fst snd]; constructor; [apply X; left; reflexivity|]. apply IH. intros j' d' H. apply X. right. exact H.
Qed.

(** ** The loops *)

Definition g_plus (_ : nat) (d : adep) : bool := negb (a_order d) && visible d.
Lemma total_app : forall a b, total (a ++ b) = total a + total b.
Proof. intros a b. unfold total. rewrite map_app, list_sum_app. reflexivity. Qed.
Definition unchanged (always : bool) (d : adep) : bool := negb (a_changed d || always).
Lemma plus_loop_ok : forall always size ds buf q i, length buf + total (map snd (sel g_plus i ds)) <= size ->
  plus_loop always size ds buf q = Some (buf ++ words_of (sel g_plus i ds), q - total (filter (unchanged always) (map snd (sel g_plus i ds)))).
Proof.
  intros always size. induction ds as [|d ds IH]; intros buf q i L; cbn [plus_loop sel]; [rewrite app_nil_r; unfold total; cbn; rewrite Nat.sub_0_r; reflexivity|].
  cbn [sel] in L. unfold g_plus at 1 in L. unfold g_plus at 1 3. destruct (negb (a_order d) && visible d) eqn:G; cbn [app map snd filter] in *; [|apply IH; exact L].
  change (total (d :: map snd (sel g_plus (S i) ds))) with (length (shown (a_name d)) + 1 + total (map snd (sel g_plus (S i) ds))) in L.
  unfold put. rewrite app_length. cbn [length]. rewrite (proj2 (Nat.leb_le _ size)) by lia.
  rewrite (IH _ _ (S i)) by (rewrite !app_length; cbn [length]; lia). unfold words_of. cbn [flat_map snd]. unfold word. rewrite <- !app_assoc. f_equal. f_equal.
  unfold unchanged at 2. destruct (a_changed d || always); cbn [negb filter]; [reflexivity|]. change (total (d :: ?l)) with (length (shown (a_name d)) + 1 + total l). lia.
Qed.

Definition g_first (all : list adep) (i : nat) (d : adep) : bool :=
  visible d && match first_with (a_name d) all 0 with Some (j, _) => j =? i | None => false end.
Definition g_caret all i d := g_first all i d && negb (a_order d).
Definition g_bar all i d := g_first all i d && a_order d.
Definition g_qmark always all i d := g_first all i d && negb (a_order d) && (a_changed d || always).
Lemma caret_loop_ok : forall always pm qm bm all ds i b,
  length (b_caret b) + total (map snd (sel (g_caret all) i ds)) <= pm -> length (b_qmark b) + total (map snd (sel (g_qmark always all) i ds)) <= qm ->
  length (b_bar b) + total (map snd (sel (g_bar all) i ds)) <= bm ->
  caret_loop always pm qm bm all i ds b =
    Some (mkbufs (b_caret b ++ words_of (sel (g_caret all) i ds)) (b_qmark b ++ words_of (sel (g_qmark always all) i ds)) (b_bar b ++ words_of (sel (g_bar all) i ds))).
Proof.
  intros always pm qm bm all. induction ds as [|d ds IH]; intros i b L1 L2 L3; cbn [caret_loop sel]; [unfold words_of; cbn; rewrite !app_nil_r; destruct b; reflexivity|].
  assert (T : forall (g : bool) (l : list (nat * adep)), total (map snd ((if g then [(i, d)] else []) ++ l)) = (if g then length (shown (a_name d)) + 1 else 0) + total (map snd l)).
  { intros [|] l; reflexivity. }
  assert (W : forall (g : bool) (l : list (nat * adep)), words_of ((if g then [(i, d)] else []) ++ l) = (if g then word d else []) ++ words_of l).
  { intros [|] l; reflexivity. }
  assert (PUT : forall size buf rest, length buf + (length (shown (a_name d)) + 1 + rest) <= size -> put size buf (shown (a_name d) ++ [c_sp]) = Some (buf ++ word d)).
  { intros size buf rest H. unfold put. rewrite app_length. cbn [length]. rewrite (proj2 (Nat.leb_le _ size)) by lia. reflexivity. }
  assert (LW : length (word d) = length (shown (a_name d)) + 1) by (unfold word; rewrite app_length; reflexivity).
  cbn [sel] in L1, L2, L3. rewrite T in L1, L2, L3. rewrite !W.
  change (visible d && match first_with (a_name d) all 0 with Some (j, _) => j =? i | None => false end) with (g_first all i d).
  unfold g_caret at 1 in L1. unfold g_qmark at 1 in L2. unfold g_bar at 1 in L3. unfold g_caret at 1, g_qmark at 1, g_bar at 1.
  destruct (g_first all i d); cbn [andb] in *; [|rewrite IH by (cbn [b_caret b_qmark b_bar]; lia); reflexivity].
  destruct (a_order d); cbn [negb andb] in *.
  - rewrite (PUT bm (b_bar b) (total (map snd (sel (g_bar all) (S i) ds)))) by lia. rewrite IH; cbn [b_caret b_qmark b_bar]; [cbn [app]; rewrite <- app_assoc; reflexivity|lia|lia|rewrite app_length; lia].
  - rewrite (PUT pm (b_caret b) (total (map snd (sel (g_caret all) (S i) ds)))) by lia. destruct (a_changed d || always).
    + rewrite (PUT qm (b_qmark b) (total (map snd (sel (g_qmark always all) (S i) ds)))) by lia. rewrite IH; cbn [b_caret b_qmark b_bar]; [cbn [app]; rewrite <- !app_assoc; reflexivity|rewrite app_length; lia|rewrite app_length; lia|lia].
    + rewrite IH; cbn [b_caret b_qmark b_bar]; [cbn [app]; rewrite <- !app_assoc; reflexivity|rewrite app_length; lia|lia|lia].
Qed.
(** The values, if nothing is written past an end. *)
Lemma caret_loop_value : forall always pm qm bm all ds i b b', caret_loop always pm qm bm all i ds b = Some b' ->
  b' = mkbufs (b_caret b ++ words_of (sel (g_caret all) i ds)) (b_qmark b ++ words_of (sel (g_qmark always all) i ds)) (b_bar b ++ words_of (sel (g_bar all) i ds)).
Proof.
  intros always pm qm bm all. induction ds as [|d ds IH]; intros i b b'; cbn [caret_loop sel]; [unfold words_of; cbn; rewrite !app_nil_r; destruct b; intros H; injection H as <-; reflexivity|].
  assert (W : forall (g : bool) (l : list (nat * adep)), words_of ((if g then [(i, d)] else []) ++ l) = (if g then word d else []) ++ words_of l) by (intros [|] l; reflexivity).
  assert (PUT : forall size buf x, put size buf (shown (a_name d) ++ [c_sp]) = Some x -> x = buf ++ word d).
  { intros size buf x. unfold put. destruct (_ <=? _); [|discriminate]. intros H. injection H as <-. reflexivity. }
  rewrite !W. change (visible d && match first_with (a_name d) all 0 with Some (j, _) => j =? i | None => false end) with (g_first all i d).
  unfold g_caret at 1, g_qmark at 1, g_bar at 1. destruct (g_first all i d); cbn [andb]; [|intros H; apply IH in H; exact H].
  destruct (a_order d); cbn [negb andb app].
  - destruct (put bm (b_bar b) (shown (a_name d) ++ [c_sp])) as [x|] eqn:P; [|discriminate]. apply PUT in P. subst x. intros H. apply IH in H. cbn [b_caret b_qmark b_bar] in H. rewrite <- app_assoc in H. exact H.
  - destruct (put pm (b_caret b) (shown (a_name d) ++ [c_sp])) as [x|] eqn:P; [|discriminate]. apply PUT in P. subst x. destruct (a_changed d || always); cbn [app].
    + destruct (put qm (b_qmark b) (shown (a_name d) ++ [c_sp])) as [x|] eqn:P; [|discriminate]. apply PUT in P. subst x. intros H. apply IH in H. cbn [b_caret b_qmark b_bar] in H. rewrite <- !app_assoc in H. exact H.
    + intros H. apply IH in H. cbn [b_caret b_qmark b_bar] in H. rewrite <- !app_assoc in H. exact H.
Qed.

(** ** Sizes *)

Lemma name_lengths_total : forall o ds i, total (map snd (sel (fun _ d => visible d && Bool.eqb (a_order d) o) i ds)) <= name_lengths o ds.
Proof.
  intros o. induction ds as [|d ds IH]; intros i; cbn [sel name_lengths]; [apply Nat.le_refl|]. specialize (IH (S i)). destruct (visible d && Bool.eqb (a_order d) o); cbn [app map snd]; [|lia].
  change (total (d :: ?l)) with (length (shown (a_name d)) + 1 + total l). pose proof (shown_length (a_name d)). lia.
Qed.
Lemma sel_ext : forall g h ds i, (forall j d, g j d = h j d) -> sel g i ds = sel h i ds.
Proof. intros g h. induction ds as [|d ds IH]; intros i H; [reflexivity|]. cbn [sel]. rewrite (H i d), (IH _ H). reflexivity. Qed.
Definition weight (n : str) : nat := length (shown n) + 1.
Lemma total_names : forall l, total l = list_sum (map weight (map a_name l)).
Proof. intros l. unfold total. rewrite map_map. reflexivity. Qed.
Lemma sum_incl : forall N L : list str, NoDup N -> incl N L -> list_sum (map weight N) <= list_sum (map weight L).
Proof.
  induction N as [|n N IH]; intros L ND I; [apply Nat.le_0_l|]. inversion ND as [|n' N' NN ND']. subst. assert (IN : In n L) by (apply I; left; reflexivity). apply in_split in IN. destruct IN as (a & b & ->).
  specialize (IH (a ++ b) ND'). rewrite map_app, list_sum_app in *. change (list_sum (map weight (n :: ?l))) with (weight n + list_sum (map weight l)).
  assert (I' : incl N (a ++ b)). { intros x Hx. assert (K : In x (a ++ n :: b)) by (apply I; right; exact Hx). apply in_app_or in K. apply in_or_app. destruct K as [K|[K|K]]; [left; exact K|subst x; contradiction|right; exact K]. }
  specialize (IH I'). lia.
Qed.
Lemma g_first_iff : forall all i d, nth_error all i = Some d -> g_first all i d = true <-> is_first all i d.
Proof.
  intros all i d H. unfold g_first. rewrite andb_true_iff, visible_iff. split.
  - intros [V F]. destruct (first_with (a_name d) all 0) as [[j e]|] eqn:E; [|discriminate]. apply Nat.eqb_eq in F. subst j. apply first_with_first in E. destruct E as [E _]. assert (e = d) by (destruct E as [[E _] _]; congruence). subst e. exact E.
  - intros F. split; [exact (proj2 (proj1 F))|]. rewrite (proj2 (first_with_first all (a_name d) i d) (conj F eq_refl)). apply Nat.eqb_refl.
Qed.
Lemma sel_first_nodup : forall all (h : adep -> bool), NoDup (map a_name (map snd (sel (fun i d => g_first all i d && h d) 0 all))).
Proof.
  intros all h. set (g := fun i d => g_first all i d && h d). assert (SRT := sel_sorted g all 0).
  assert (F : forall j d, In (j, d) (sel g 0 all) -> is_first all j d).
  { intros j d H. apply sel_in in H. destruct H as (_ & H & G). rewrite Nat.sub_0_r in H. unfold g in G. apply andb_true_iff in G. apply g_first_iff; tauto. }
  induction (sel g 0 all) as [|[j d] l IH]; cbn [map fst snd] in *; [constructor|]. inversion SRT as [|j' l' ST FA]. subst. constructor; [|apply IH; [exact ST|intros j' d' H; apply F; right; exact H]].
  intros K. apply in_map_iff in K. destruct K as (e & NE & K). apply in_map_iff in K. destruct K as ([k e'] & <- & K). cbn [snd] in NE. rewrite Forall_forall in FA. assert (L : j < k) by (apply FA; apply in_map_iff; exists (k, e'); auto).
  destruct (F k e' (or_intror K)) as [_ Z]. apply (Z j d L (proj1 (F j d (or_introl eq_refl)))). symmetry. exact NE.
Qed.

Section Sizes.
  Variable ds : list adep.
  Let s := upgrade ds.
  Lemma s_erased : erased s = erased ds.
  Proof. exact (proj1 (upgrade_spec ds)). Qed.
  Lemma first_of : forall g (h : adep -> bool) j d, (forall j d, g j d = g_first s j d && h d) -> In (j, d) (sel g 0 s) -> is_first s j d /\ h d = true.
  Proof. intros g h j d G H. apply sel_in in H. destruct H as (_ & H & K). rewrite Nat.sub_0_r in H. rewrite G in K. apply andb_true_iff in K. destruct K as [K1 K2]. apply g_first_iff in K1; auto. Qed.

  Lemma names_incl : forall g (h k : adep -> bool), (forall j d, g j d = g_first s j d && h d) ->
    (forall j d, is_first s j d -> h d = true -> exists i e, at_place ds i e /\ a_name e = a_name d /\ k e = true) ->
    forall gk, (forall i e, at_place ds i e -> k e = true -> gk i e = true) ->
    total (map snd (sel g 0 s)) <= total (map snd (sel gk 0 ds)).
  Proof.
    intros g h k G H gk GK. rewrite !total_names. apply sum_incl.
    - rewrite (sel_ext g (fun j d => g_first s j d && h d) s 0 G). apply sel_first_nodup.
    - intros n N. apply in_map_iff in N. destruct N as (d & <- & N). apply in_map_iff in N. destruct N as ([j d'] & <- & N). cbn [snd]. destruct (first_of g h j d' G N) as [F HD].
      destruct (H j d' F HD) as (i & e & A & NE & K). rewrite <- NE. apply in_map. apply in_map_iff. exists (i, e). split; [reflexivity|]. apply sel_in. rewrite Nat.sub_0_r. split; [lia|]. split; [exact (proj1 A)|exact (GK i e A K)].
  Qed.

  Lemma normal_place : forall n, normal ds n -> exists i e, at_place ds i e /\ a_name e = n /\ a_order e = false.
  Proof. auto. Qed.
  Lemma caret_fits : total (map snd (sel (g_caret s) 0 s)) <= total (map snd (sel g_plus 0 ds)).
  Proof.
    apply (names_incl (g_caret s) (fun d => negb (a_order d)) (fun d => negb (a_order d))); [reflexivity| |].
    - intros j d F H. apply negb_true_iff in H. apply (proj2 (upgrade_spec ds) j d F) in H. destruct H as (i & e & A & N & O). exists i, e. split; [exact A|]. split; [exact N|]. rewrite O. reflexivity.
    - intros i e (_ & V) K. unfold g_plus. rewrite K. apply visible_iff. exact V.
  Qed.
  Lemma bar_fits : total (map snd (sel (g_bar s) 0 s)) <= total (map snd (sel (fun _ d => visible d && Bool.eqb (a_order d) true) 0 ds)).
  Proof.
    apply (names_incl (g_bar s) a_order a_order); [reflexivity| |].
    - intros j d F H. destruct (erased_place ds s s_erased j d (proj1 F)) as (d' & A & N). exists j, d'. split; [exact A|]. split; [exact (proj1 (erased_names _ _ N))|].
      destruct (a_order d') eqn:O; [reflexivity|]. assert (K : normal ds (a_name d)) by (exists j, d'; split; [exact A|]; split; [exact (proj1 (erased_names _ _ N))|exact O]).
      apply (proj2 (upgrade_spec ds) j d F) in K. congruence.
    - intros i e (_ & V) K. rewrite K. apply visible_iff in V. rewrite V. reflexivity.
  Qed.
  Lemma qmark_fits : forall always, (always = true \/ consistent ds) ->
    total (map snd (sel (g_qmark always s) 0 s)) <= total (map snd (sel (fun i d => g_plus i d && negb (unchanged always d)) 0 ds)).
  Proof.
    intros always C. apply (names_incl (g_qmark always s) (fun d => negb (a_order d) && (a_changed d || always)) (fun d => negb (a_order d) && (a_changed d || always))).
    - intros j d. unfold g_qmark. rewrite andb_assoc. reflexivity.
    - intros j d F H. apply andb_true_iff in H. destruct H as [H1 H2]. apply negb_true_iff in H1. apply (proj2 (upgrade_spec ds) j d F) in H1. destruct H1 as (i & e & A & N & O). exists i, e. split; [exact A|]. split; [exact N|]. rewrite O. cbn [negb andb].
      destruct C as [-> |C]; [apply orb_true_r|]. destruct (erased_place ds s s_erased j d (proj1 F)) as (d' & A' & N'). destruct (erased_names _ _ N') as [N1 N2]. rewrite (C i j e d' A A' (eq_trans N (eq_sym N1))), N2. exact H2.
    - intros i e (_ & V) K. apply andb_true_iff in K. destruct K as [K1 K2]. unfold g_plus, unchanged. rewrite negb_involutive, K1, K2. apply visible_iff in V. rewrite V. reflexivity.
  Qed.
  Lemma total_filter : forall (f : adep -> bool) l, total (filter f l) + total (filter (fun d => negb (f d)) l) = total l.
  Proof. intros f l. induction l as [|d l IH]; [reflexivity|]. cbn [filter]. destruct (f d); cbn [negb]; change (total (d :: ?l)) with (length (shown (a_name d)) + 1 + total l); lia. Qed.
  Lemma sel_filter : forall g (f : adep -> bool) l i, map snd (sel (fun i d => g i d && f d) i l) = filter f (map snd (sel g i l)).
  Proof. intros g f. induction l as [|d l IH]; intros i; [reflexivity|]. cbn [sel]. rewrite !map_app, filter_app, IH. destruct (g i d); cbn [andb]; [|reflexivity]. destruct (f d) eqn:E; cbn [map snd filter]; rewrite E; reflexivity. Qed.

  Lemma plus_fits : total (map snd (sel g_plus 0 ds)) <= name_lengths false ds.
  Proof.
    rewrite (sel_ext g_plus (fun _ d => visible d && Bool.eqb (a_order d) false)); [apply name_lengths_total|]. intros j d. unfold g_plus. destruct (a_order d); cbn; [rewrite andb_false_r|rewrite andb_true_r]; reflexivity.
  Qed.

  Theorem lists_ok : forall always z, (always = true \/ consistent ds) -> set_lists always z ds <> None.
  Proof.
    intros always z C. unfold set_lists. set (pl := at_least_one (name_lengths false ds)). set (bl := at_least_one (name_lengths true ds)).
    assert (P1 : name_lengths false ds <= pl /\ 1 <= pl) by (unfold pl, at_least_one; destruct (name_lengths false ds); lia).
    assert (B1 : name_lengths true ds <= bl /\ 1 <= bl) by (unfold bl, at_least_one; destruct (name_lengths true ds); lia).
    pose proof plus_fits as PF. pose proof caret_fits as CF. pose proof bar_fits as BF. pose proof (qmark_fits always C) as QF. pose proof (name_lengths_total true ds 0) as NB. fold s.
    rewrite (plus_loop_ok always (Nat.max (z_plus z) pl) ds [] (pl + 1) 0) by (cbn [length]; lia). cbn [app]. rewrite kill_spaced by lia.
    rewrite (sel_filter g_plus (fun d => negb (unchanged always d))) in QF. pose proof (total_filter (unchanged always) (map snd (sel g_plus 0 ds))) as TF.
    rewrite caret_loop_ok; cbn [b_caret b_qmark b_bar length]; try lia. cbn [app]. rewrite !kill_spaced by lia. discriminate.
  Qed.

  Theorem lists_value : forall always z v ds' z', set_lists always z ds = Some (v, ds', z') ->
    listing ds (in_plus ds) (v_plus v) /\ listing ds (in_caret ds) (v_caret v) /\ listing ds (in_bar ds) (v_bar v) /\ listing ds (in_qmark ds always) (v_qmark v).
  Proof.
    intros always z v ds' z'. unfold set_lists. set (pl := at_least_one (name_lengths false ds)). set (bl := at_least_one (name_lengths true ds)).
    assert (P1 : name_lengths false ds <= pl /\ 1 <= pl) by (unfold pl, at_least_one; destruct (name_lengths false ds); lia). assert (B1 : 1 <= bl) by (unfold bl, at_least_one; destruct (name_lengths true ds); lia).
    pose proof plus_fits as PF. fold s. rewrite (plus_loop_ok always (Nat.max (z_plus z) pl) ds [] (pl + 1) 0) by (cbn [length]; lia). cbn [app]. rewrite kill_spaced by lia.
    set (q := pl + 1 - total (filter (unchanged always) (map snd (sel g_plus 0 ds)))). assert (Q1 : 1 <= q). { unfold q. pose proof (total_filter (unchanged always) (map snd (sel g_plus 0 ds))) as TF. lia. }
    destruct (caret_loop always _ _ _ s 0 s _) as [b|] eqn:CL; [|discriminate]. apply caret_loop_value in CL. subst b. cbn [b_caret b_qmark b_bar app]. rewrite !kill_spaced by lia. intros H. injection H as <- <- <-.
    cbn [v_plus v_caret v_bar v_qmark].
    assert (LT : forall (j : nat) d, nth_error ds j = Some d -> j < length ds) by (intros j d D; apply nth_error_Some; rewrite D; discriminate).
    assert (FD : forall j d, is_first s j d -> exists d', is_first ds j d' /\ a_name d' = a_name d /\ a_changed d' = a_changed d).
    { intros j d F. destruct (erased_first ds s s_erased j d F) as (d' & F' & N). exists d'. split; [exact F'|]. exact (erased_names _ _ N). }
    assert (SF : forall j d d', nth_error s j = Some d -> is_first ds j d' -> is_first s j d /\ a_name d' = a_name d /\ a_changed d' = a_changed d).
    { intros j d d' D F. destruct (erased_first s ds (eq_sym s_erased) j d' F) as (e & F' & N). assert (e = d) by (destruct F' as [[X _] _]; congruence). subst e. split; [exact F'|]. destruct (erased_names _ _ N). auto. }
    split; [|split; [|split]].
    - apply listing_sel; [reflexivity| |].
      + intros j d D. unfold g_plus, in_plus. rewrite andb_true_iff, negb_true_iff, visible_iff. split.
        * intros [O V]. exists d. split; [split; [exact D|exact V]|exact O].
        * intros (d' & (D' & V) & O). assert (d' = d) by congruence. subst d'. auto.
      + intros j (d & (D & _) & _). exact (LT j d D).
    - apply listing_sel; [exact s_erased| |].
      + intros j d D. unfold g_caret, in_caret. rewrite andb_true_iff, negb_true_iff, (g_first_iff s j d D). split.
        * intros [F O]. destruct (FD j d F) as (d' & F' & N & _). exists d'. split; [exact F'|]. rewrite N. apply (proj2 (upgrade_spec ds) j d F). exact O.
        * intros (d' & F' & NM). destruct (SF j d d' D F') as (F & N & _). split; [exact F|]. apply (proj2 (upgrade_spec ds) j d F). rewrite <- N. exact NM.
      + intros j (d & ((D & _) & _) & _). exact (LT j d D).
    - apply listing_sel; [exact s_erased| |].
      + intros j d D. unfold g_bar, in_bar. rewrite andb_true_iff, (g_first_iff s j d D). split.
        * intros [F O]. destruct (FD j d F) as (d' & F' & N & _). exists d'. split; [exact F'|]. rewrite N. intros K. apply (proj2 (upgrade_spec ds) j d F) in K. congruence.
        * intros (d' & F' & NM). destruct (SF j d d' D F') as (F & N & _). split; [exact F|]. destruct (a_order d) eqn:O; [reflexivity|]. exfalso. apply NM. rewrite N. apply (proj2 (upgrade_spec ds) j d F). exact O.
      + intros j (d & ((D & _) & _) & _). exact (LT j d D).
    - apply listing_sel; [exact s_erased| |].
      + intros j d D. unfold g_qmark, in_qmark. rewrite !andb_true_iff, orb_true_iff, negb_true_iff, (g_first_iff s j d D). split.
        * intros [[F O] C]. destruct (FD j d F) as (d' & F' & N & CH). exists d'. split; [exact F'|]. split; [rewrite N; apply (proj2 (upgrade_spec ds) j d F); exact O|]. rewrite CH. exact C.
        * intros (d' & F' & NM & C). destruct (SF j d d' D F') as (F & N & CH). split; [|rewrite <- CH; exact C]. split; [exact F|]. apply (proj2 (upgrade_spec ds) j d F). rewrite <- N. exact NM.
      + intros j (d & ((D & _) & _) & _). exact (LT j d D).
  Qed.
End Sizes.

(** ** The single names *)

Lemma strip_suffix_ok : forall name l, stripped name l (strip_suffix name l).
Proof.
  intros name. induction l as [|s l IH]; cbn [strip_suffix]; [constructor|]. destruct ((length s <? length name) && str_eqb s (skipn (length name - length s) name)) eqn:E.
  - apply andb_true_iff in E. destruct E as [E1 E2]. apply Nat.ltb_lt in E1. apply str_eqb_eq in E2. apply st_here.
    + rewrite E2 at 2. symmetry. apply firstn_skipn.
    + intros K. assert (L : length (firstn (length name - length s) name) = 0) by (rewrite K; reflexivity). rewrite firstn_length in L. lia.
  - apply st_later; [|exact IH]. intros y NE ->. rewrite <- not_true_iff_false in E. apply E. apply andb_true_iff. rewrite app_length. split; [apply Nat.ltb_lt; destruct y; [congruence|cbn; lia]|].
    apply str_eqb_eq. replace (length y + length s - length s) with (length y) by lia. rewrite skipn_app, skipn_all, Nat.sub_diag. reflexivity.
Qed.

(** What has been written fits. *)
Lemma put_within : forall size buf s x, put size buf s = Some x -> length x <= size.
Proof. intros size buf s x H. unfold put in H. destruct (length buf + length s <=? size) eqn:E; [|discriminate]. injection H as <-. apply Nat.leb_le in E. rewrite app_length. exact E. Qed.
Lemma kill_within : forall size buf x, length buf <= size -> kill_last size buf = Some x -> length x < size.
Proof.
  intros size [|c buf] x L H; cbn [kill_last] in H.
  - destruct (1 <=? size) eqn:E; [|discriminate]. injection H as <-. apply Nat.leb_le in E. cbn [length]. lia.
  - injection H as <-. assert (E : length (removelast (c :: buf)) = length buf). { clear L. revert c. induction buf as [|c' b IH]; intros c; [reflexivity|]. change (removelast (c :: c' :: b)) with (c :: removelast (c' :: b)). cbn [length]. rewrite IH. reflexivity. }
    cbn [length] in L. eapply Nat.le_lt_trans; [apply Nat.eq_le_incl; exact E|]. lia.
Qed.
Lemma plus_within : forall always size ds buf q x q', length buf <= size -> plus_loop always size ds buf q = Some (x, q') -> length x <= size.
Proof.
  intros always size. induction ds as [|d ds IH]; intros buf q x q' L H; cbn [plus_loop] in H; [injection H as <- _; exact L|].
  destruct (negb (a_order d) && visible d); [|exact (IH _ _ _ _ L H)]. destruct (put size buf (shown (a_name d) ++ [c_sp])) as [b'|] eqn:P; [|discriminate]. exact (IH _ _ _ _ (put_within _ _ _ _ P) H).
Qed.
Lemma caret_within : forall always pm qm bm all ds i b b', length (b_caret b) <= pm -> length (b_qmark b) <= qm -> length (b_bar b) <= bm -> caret_loop always pm qm bm all i ds b = Some b' ->
  length (b_caret b') <= pm /\ length (b_qmark b') <= qm /\ length (b_bar b') <= bm.
Proof.
  intros always pm qm bm all. induction ds as [|d ds IH]; intros i b b' L1 L2 L3 H; cbn [caret_loop] in H; [injection H as <-; auto|]. destruct (visible d && _); [|exact (IH _ _ _ L1 L2 L3 H)].
  destruct (a_order d).
  - destruct (put bm (b_bar b) (shown (a_name d) ++ [c_sp])) as [x|] eqn:P; [|discriminate]. apply (IH _ _ _) in H; cbn [b_caret b_qmark b_bar]; auto. exact (put_within _ _ _ _ P).
  - destruct (put pm (b_caret b) (shown (a_name d) ++ [c_sp])) as [x|] eqn:P; [|discriminate]. apply put_within in P. destruct (a_changed d || always).
    + destruct (put qm (b_qmark b) (shown (a_name d) ++ [c_sp])) as [y|] eqn:P'; [|discriminate]. apply put_within in P'. apply (IH _ _ _) in H; auto.
    + apply (IH _ _ _) in H; auto.
Qed.
Theorem lists_fit : forall always z ds v ds' z', set_lists always z ds = Some (v, ds', z') ->
  length (v_plus v) < z_plus z' /\ length (v_caret v) < z_plus z' /\ length (v_qmark v) < z_qmark z' /\ length (v_bar v) < z_bar z'.
Proof.
  intros always z ds v ds' z' H. unfold set_lists in H. set (pm := max (z_plus z) _) in H. destruct (plus_loop always pm ds [] _) as [[p q]|] eqn:P; [|discriminate]. apply plus_within in P; [|cbn [length]; lia].
  destruct (kill_last pm p) as [p'|] eqn:K; [|discriminate]. apply (kill_within _ _ _ P) in K. destruct (caret_loop _ _ _ _ _ _ _ _) as [b|] eqn:C; [|discriminate]. apply caret_within in C; try (cbn [length b_caret b_qmark b_bar]; lia). destruct C as (C1 & C2 & C3).
  destruct (kill_last pm (b_caret b)) as [c|] eqn:K1; [|discriminate]. destruct (kill_last _ (b_qmark b)) as [q'|] eqn:K2; [|discriminate]. destruct (kill_last _ (b_bar b)) as [r|] eqn:K3; [|discriminate]. injection H as <- <- <-. cbn [v_plus v_caret v_qmark v_bar z_plus z_qmark z_bar].
  split; [exact K|]. split; [exact (kill_within _ _ _ C1 K1)|]. split; [exact (kill_within _ _ _ C2 K2)|exact (kill_within _ _ _ C3 K3)].
Qed.
