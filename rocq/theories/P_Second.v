(** Proofs about second expansion. *)
From Coq Require Import Lia.
From Verif Require Import Base M_Text S_Text Properties_Text M_Auto S_Auto P_Auto P_Auto2 Properties_Auto M_Rules S_Rules P_Rules M_Second S_Second.
Open Scope string_scope.
Open Scope list_scope.
Open Scope nat_scope.

(** * The flags *)
Definition low (N : str -> Prop) (d e : adep) : Prop :=
  a_2nd d = a_2nd e /\ a_ignored d = a_ignored e /\ a_changed d = a_changed e /\ (a_2nd d = false -> a_name d = a_name e) /\
  (a_order d = a_order e \/ (a_order d = true /\ a_order e = false /\ a_2nd d = false /\ a_ignored d = false /\ N (a_name d))).
Lemma low_refl N d : low N d d.
Proof. unfold low. auto 10. Qed.
Lemma low_all_refl N l : Forall2 (low N) l l.
Proof. induction l; constructor; auto using low_refl. Qed.
Lemma low_mono (N M : str -> Prop) d e : (forall n, N n -> M n) -> low N d e -> low M d e.
Proof. intros H (A & B & C & D & E). unfold low. repeat (split; [assumption|]). destruct E as [E | (E1 & E2 & E3 & E4 & E5)]; [left; assumption | right; repeat (split; [assumption|]); auto]. Qed.
Lemma low_trans (N M : str -> Prop) d e g : (forall n, M n -> N n) -> low N d e -> low M e g -> low N d g.
Proof.
  intros H (A1 & A2 & A3 & A4 & A5) (B1 & B2 & B3 & B4 & B5). unfold low. repeat (split; [congruence|]). split; [intros X; rewrite A4 by auto; apply B4; congruence|].
  destruct A5 as [A5 | (A5 & A6 & A7 & A8 & A9)], B5 as [B5 | (B5 & B6 & B7 & B8 & B9)]; try (left; congruence); right.
  - repeat (split; [congruence|]). rewrite A4 by congruence. auto.
  - repeat (split; [congruence|]). auto.
Qed.
Lemma Forall2_nth {A B} (R : A -> B -> Prop) l m : Forall2 R l m -> forall k, match nth_error l k, nth_error m k with Some x, Some y => R x y | None, None => True | _, _ => False end.
Proof. induction 1 as [| x y l m H F IH]; intros [| k]; cbn; auto; apply IH. Qed.
Lemma nth_Forall2 {A B} (R : A -> B -> Prop) l m : (forall k, match nth_error l k, nth_error m k with Some x, Some y => R x y | None, None => True | _, _ => False end) -> Forall2 R l m.
Proof.
  revert m. induction l as [| x l IH]; intros [| y m] H; [constructor | destruct (H 0) | destruct (H 0) |]. constructor; [exact (H 0) | apply IH; intros k; exact (H (S k))].
Qed.
Lemma Forall2_sym_nth {A B} (R : A -> B -> Prop) l m k y : Forall2 R l m -> nth_error m k = Some y -> exists x, nth_error l k = Some x /\ R x y.
Proof. intros F H. pose proof (Forall2_nth _ _ _ F k) as X. rewrite H in X. destruct (nth_error l k) as [x|]; [eauto | destruct X]. Qed.
Lemma Forall2_nth_l {A B} (R : A -> B -> Prop) l m k x : Forall2 R l m -> nth_error l k = Some x -> exists y, nth_error m k = Some y /\ R x y.
Proof. intros F H. pose proof (Forall2_nth _ _ _ F k) as X. rewrite H in X. destruct (nth_error m k) as [y|]; [eauto | destruct X]. Qed.

Lemma normal_iff ds n : normal ds n <-> exists d, In d ds /\ a_2nd d = false /\ a_ignored d = false /\ a_name d = n /\ a_order d = false.
Proof.
  unfold normal, at_place. split.
  - intros (k & d & (H & A & B) & N & O). exists d. split; auto. apply nth_error_In in H. exact H.
  - intros (d & I & A & B & N & O). apply In_nth_error in I. destruct I as (k & I). exists k, d. auto.
Qed.
Lemma normal_low N ds s : Forall2 (low N) ds s -> (forall n, N n -> normal ds n) -> forall n, normal s n <-> normal ds n.
Proof.
  intros F H n. unfold normal, at_place. split.
  - intros (k & e & (E & A & B) & M & O). destruct (Forall2_sym_nth _ _ _ _ _ F E) as (d & D & L1 & L2 & L3 & L4 & L5). destruct L5 as [L5 | (L5 & L6 & L7 & L8 & L9)].
    + exists k, d. rewrite L4 by congruence. repeat split; congruence.
    + apply H in L9. rewrite L4, M in L9 by congruence. exact L9.
  - intros (k & d & (E & A & B) & M & O). destruct (Forall2_nth_l _ _ _ _ _ F E) as (e & D & L1 & L2 & L3 & L4 & L5). exists k, e. rewrite <- L4 by auto. repeat split; try congruence. destruct L5 as [L5 | (L5 & _)]; congruence.
Qed.

(** * set_file_variables may raise *)
Lemma upgrade_at_low ds s i : Forall2 (low (normal ds)) ds s -> Forall2 (low (normal ds)) ds (upgrade_at s i).
Proof.
  intros F. unfold upgrade_at. destruct (nth_error s i) as [d|] eqn:D; auto. destruct (visible d) eqn:V; auto. destruct (first_with (a_name d) s 0) as [[j hd]|] eqn:W; auto.
  destruct ((j <? i) && negb (Bool.eqb (a_order d) (a_order hd))) eqn:C; auto. apply andb_true_iff in C. destruct C as [_ C]. apply negb_true_iff in C.
  apply first_with_first in W. destruct W as [[[HJ HV] _] HN]. unfold visible in V. apply andb_true_iff in V. destruct V as [V1 V2]. apply negb_true_iff in V1, V2.
  assert (N : normal ds (a_name d)).
  { apply (normal_low (normal ds) ds s F); auto. destruct (a_order d) eqn:O.
    - exists j, hd. destruct (a_order hd) eqn:P; [discriminate|]. repeat split; tauto.
    - exists i, d. repeat split; auto. }
  apply nth_Forall2. intros k. rewrite !set_nth_nth. pose proof (Forall2_nth _ _ _ F k) as X.
  assert (RAISE : forall e, a_name e = a_name d -> a_2nd e = false -> a_ignored e = false -> forall x, low (normal ds) x e -> low (normal ds) x (no_order e)).
  { intros e E1 E2 E3 x (L1 & L2 & L3 & L4 & L5). unfold low, no_order. cbn. repeat (split; [auto|]). destruct (a_order x) eqn:OX; auto. right. repeat (split; [congruence|]). rewrite L4 by congruence. rewrite E1. exact N. }
  destruct (k =? i) eqn:KI.
  - apply Nat.eqb_eq in KI. subst k. destruct (i =? j) eqn:IJ.
    + rewrite D in *. cbn. destruct (nth_error ds i) as [x|]; [|exact X]. change (no_order (no_order d)) with (no_order d). apply RAISE; auto.
    + rewrite D in *. cbn. destruct (nth_error ds i) as [x|]; [|exact X]. apply RAISE; auto.
  - destruct (k =? j) eqn:KJ; [|exact X]. apply Nat.eqb_eq in KJ. subst k. rewrite HJ in *. cbn. destruct (nth_error ds j) as [x|]; [|exact X]. apply RAISE; tauto.
Qed.
Lemma upgrades_low ds ks s : Forall2 (low (normal ds)) ds s -> Forall2 (low (normal ds)) ds (fold_left upgrade_at ks s).
Proof. revert s. induction ks as [| k ks IH]; intros s F; [exact F|]. cbn [fold_left]. apply IH, upgrade_at_low, F. Qed.
Lemma upgrade_low ds : Forall2 (low (normal ds)) ds (upgrade ds).
Proof. apply upgrades_low, low_all_refl. Qed.

(** * Lists that differ by flags *)
Section Transfer.
  Variables (ds s : list adep).
  Hypothesis F : Forall2 (low (normal ds)) ds s.
  Lemma place_low j e : at_place s j e -> exists d, at_place ds j d /\ a_name d = a_name e.
  Proof. intros (E & A & B). destruct (Forall2_sym_nth _ _ _ _ _ F E) as (d & D & L1 & L2 & L3 & L4 & L5). exists d. split; [split; [auto | split; congruence] | apply L4; congruence]. Qed.
  Lemma place_low' j d : at_place ds j d -> exists e, at_place s j e /\ a_name d = a_name e.
  Proof. intros (E & A & B). destruct (Forall2_nth_l _ _ _ _ _ F E) as (e & D & L1 & L2 & L3 & L4 & L5). exists e. split; [split; [auto | split; congruence] | apply L4; congruence]. Qed.
  Lemma first_low j e : is_first s j e -> exists d, is_first ds j d /\ a_name d = a_name e.
  Proof.
    intros [A H]. destruct (place_low j e A) as (d & B & E). exists d. split; auto. split; auto. intros k x K X. destruct (place_low' k x X) as (y & Y & E'). rewrite E, E'. apply (H k y K Y).
  Qed.
  Lemma first_low' j d : is_first ds j d -> exists e, is_first s j e /\ a_name d = a_name e.
  Proof.
    intros [A H]. destruct (place_low' j d A) as (e & B & E). exists e. split; auto. split; auto. intros k x K X. destruct (place_low k x X) as (y & Y & E'). rewrite <- E, <- E'. apply (H k y K Y).
  Qed.
  Lemma norm n : normal s n <-> normal ds n.
  Proof. apply (normal_low (normal ds)); auto. Qed.
  Lemma caret_low j : in_caret s j <-> in_caret ds j.
  Proof.
    unfold in_caret. split.
    - intros (e & A & N). destruct (first_low j e A) as (d & B & E). exists d. split; auto. rewrite E. apply norm, N.
    - intros (d & A & N). destruct (first_low' j d A) as (e & B & E). exists e. split; auto. rewrite <- E. apply norm, N.
  Qed.
  Lemma bar_low j : in_bar s j <-> in_bar ds j.
  Proof.
    unfold in_bar. split.
    - intros (e & A & N). destruct (first_low j e A) as (d & B & E). exists d. split; auto. rewrite E, <- norm. exact N.
    - intros (d & A & N). destruct (first_low' j d A) as (e & B & E). exists e. split; auto. rewrite <- E, norm. exact N.
  Qed.
  Lemma listing_low (P Q : nat -> Prop) v : (forall j, P j <-> Q j) -> (forall j, Q j -> exists d, at_place ds j d) -> listing s P v -> listing ds Q v.
  Proof.
    intros PQ PL (js & ws & S & I & W & V). exists js, ws. split; auto. split; [intros j; rewrite I; apply PQ|]. split; auto.
    assert (K : forall j, In j js -> Q j) by (intros j X; apply PQ, I, X). clear I S V. induction W as [| j w js ws (e & E & L) W IH]; constructor.
    - destruct (PL j (K j (or_introl eq_refl))) as (d & D). destruct (place_low' j d D) as (e' & (E' & _) & N). exists d. split; [apply D|]. assert (e' = e) by congruence. subst. rewrite N. exact L.
    - apply IH. intros j' X. apply K. right. exact X.
  Qed.
End Transfer.

Lemma listing_ext ds (P Q : nat -> Prop) v : (forall j, P j <-> Q j) -> listing ds P v -> listing ds Q v.
Proof. intros H (js & ws & S & I & W & V). exists js, ws. split; auto. split; [intros j; rewrite I; apply H | auto]. Qed.

(** * Items *)
Lemma raised_low N d e : raised N d e -> low N (adep_of d) (adep_of e).
Proof. intros (A & B & C & D & E & G). unfold low, adep_of. cbn. repeat (split; [auto|]). destruct G as [G | (G1 & G2 & G3 & G4 & G5)]; [left; assumption | right; repeat (split; [assumption|]); auto]. Qed.
Lemma raised_all_low N l m : Forall2 (raised N) l m -> Forall2 (low N) (map adep_of l) (map adep_of m).
Proof. induction 1; cbn; constructor; auto using raised_low. Qed.
Lemma raised_refl N d : raised N d d.
Proof. unfold raised. auto 10. Qed.
Lemma raised_all_refl N l : Forall2 (raised N) l l.
Proof. induction l; constructor; auto using raised_refl. Qed.
Lemma raised_mono (N M : str -> Prop) d e : (forall n, N n -> M n) -> raised N d e -> raised M d e.
Proof. intros H (A & B & C & D & E & G). unfold raised. repeat (split; [auto|]). destruct G as [G | (G1 & G2 & G3 & G4 & G5)]; [left; assumption | right; repeat (split; [assumption|]); auto]. Qed.
Lemma raised_trans (N M : str -> Prop) d e g : (forall n, M n -> N n) -> raised N d e -> raised M e g -> raised N d g.
Proof.
  intros H (A1 & A2 & A3 & A4 & A5 & A6) (B1 & B2 & B3 & B4 & B5 & B6). unfold raised. repeat (split; [congruence|]).
  destruct A6 as [A6 | (C1 & C2 & C3 & C4 & C5)], B6 as [B6 | (D1 & D2 & D3 & D4 & D5)]; try (left; congruence); right; repeat (split; [congruence|]); auto. rewrite A1. auto.
Qed.
Lemma Forall2_imp {A B} (R S : A -> B -> Prop) l m : (forall x y, R x y -> S x y) -> Forall2 R l m -> Forall2 S l m.
Proof. intros H. induction 1; constructor; auto. Qed.
Lemma Forall2_comp {A} (R S T : A -> A -> Prop) l m k : (forall x y z, R x y -> S y z -> T x z) -> Forall2 R l m -> Forall2 S m k -> Forall2 T l k.
Proof. intros H F. revert k. induction F; intros k G; inversion G; subst; constructor; eauto. Qed.
Lemma reorder_raised N l ds : Forall2 (low N) (map adep_of l) ds -> (forall d, In d l -> True) -> Forall2 (raised N) l (reorder l ds).
Proof.
  intros F _. revert ds F. induction l as [| d l IH]; intros ds F; cbn in F; inversion F as [| ? x ? ds' L F']; subst; cbn; constructor; auto.
  destruct L as (A & B & C & D & E). unfold raised, with_order. cbn in *. repeat (split; [reflexivity|]). destruct E as [E | (E1 & E2 & E3 & E4 & E5)]; [left; auto | right; repeat (split; [assumption|]); auto].
Qed.
Lemma normal_in_iff l n : normal_in l n <-> exists d, In d l /\ i_2nd d = false /\ i_extra d = false /\ i_name d = n /\ i_order d = false.
Proof.
  unfold normal_in. rewrite normal_iff. split.
  - intros (x & I & H). apply in_map_iff in I. destruct I as (d & <- & I). exists d. auto.
  - intros (d & I & H). exists (adep_of d). split; [apply in_map, I | exact H].
Qed.

Lemma stars_out x y : subst_rel [c_percent] (s2l "$*") x y -> y = stars x.
Proof.
  induction 1 as [x N | pre post out N H IH].
  - unfold stars. assert (K : ~ In c_percent x) by (intros I; apply N; apply in_split in I; destruct I as (a & b & ->); exists a, b; reflexivity).
    clear N. induction x as [| c x IH]; auto. cbn [flat_map]. destruct (c =?c c_percent) eqn:E; [apply Ascii.eqb_eq in E; subst; destruct K; left; auto|]. cbn. f_equal. apply IH. intros I. apply K. right. auto.
  - subst out. unfold stars. rewrite !flat_map_app. f_equal.
    + assert (K : ~ In c_percent pre). { intros I. apply in_split in I. destruct I as (a & b & ->). specialize (N a (b ++ [c_percent] ++ post)). rewrite app_length in N. cbn in N. assert (X : length a + S (length b) <= length a) by (apply N; rewrite <- app_assoc; reflexivity). lia. }
      clear N H. induction pre as [| c x IH]; auto. cbn [flat_map]. destruct (c =?c c_percent) eqn:E; [apply Ascii.eqb_eq in E; subst; destruct K; left; auto|]. cbn. f_equal. apply IH. intros I. apply K. right. auto.
Qed.
