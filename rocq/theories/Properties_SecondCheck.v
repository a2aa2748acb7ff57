(** The tests of S_SecondCheck follow from the theorems C67. *)
From Coq Require Import Lia Sorted String List NArith.
From Verif Require Import Base S_Text M_Auto S_Auto P_Auto P_Auto2 Properties_Auto M_Rules S_Rules M_Second S_Second P_Second P_Second2 Properties_Second S_SecondCheck W_Random W_Second.
Open Scope list_scope.
Open Scope nat_scope.

Lemma str_refl (s : str) : str_eqb s s = true.
Proof. apply str_eqb_eq. reflexivity. Qed.
Lemma raised_check out d e : raised (normal_in out) d e -> raisedb out d e = true.
Proof.
  intros (A & B & C & D & E & F). unfold raisedb. rewrite A, B, C, D, E, str_refl, !eqb_reflx. assert (X : same_stem (i_stem e) (i_stem e) = true) by (destruct (i_stem e); cbn; auto using str_refl). rewrite X. cbn [andb].
  destruct F as [-> | (O & O' & S & X' & N)]; [rewrite eqb_reflx; reflexivity|]. rewrite O, O'. rewrite <- B, <- E, S, X'. cbn [andb negb eqb orb].
  destruct N as (k & x & (P & P2 & P3) & N & PO). apply existsb_exists. apply nth_error_In in P. apply in_map_iff in P. destruct P as (y & <- & I). cbn in *. exists y. split; auto. rewrite P2, P3, PO, N, A, str_refl. reflexivity.
Qed.
Lemma all2_of {A B} (R : A -> B -> Prop) p l m : (forall a b, R a b -> p a b = true) -> Forall2 R l m -> all2 p l m = true.
Proof. intros H. induction 1; cbn [all2]; auto. rewrite H, IHForall2 by auto. reflexivity. Qed.
Lemma raised_same N l m : no_order l -> Forall2 (raised N) l m -> l = m.
Proof.
  intros O F. induction F as [| x y l m R F IH]; auto. inversion O as [| ? ? OX OL]; subst. f_equal; [|auto]. destruct x, y. destruct R as (A & B & C & D & E & G). cbn in *. subst.
  destruct G as [-> | (G & _)]; [reflexivity | discriminate].
Qed.
Lemma named_normal stem l : Forall (fun x => d_order x = false) l -> no_order (named stem l).
Proof.
  intros F. unfold no_order, named. apply Forall_forall. intros x I. apply in_map_iff in I. destruct I as (y & <- & I). cbn. rewrite Forall_forall in F.
  destruct stem as [s|]; [|auto]. apply in_flat_map in I. destruct I as (u & U & I). unfold instance in I. specialize (F u U). match type of I with context [match ?u with (_, _) => _ end] => destruct u as [p [[| c q]|]] end; try (destruct I as [<-|[]]; exact F).
  destruct (p ++ s ++ q); [destruct I|]. destruct I as [<-|[]]. exact F.
Qed.
Section Ref.
  Variable always : bool.
  Variable suffixes : list str.
  Variable ex : values -> str -> str.
  Variable split : str -> list dep.
  Lemma ref_same f bef rest out o : expands always suffixes ex split f bef rest out ->
    few ex \/ (no_order bef /\ no_order rest /\ splits_normal split) -> ref always suffixes ex split f bef rest = Some o -> o = out.
  Proof.
    induction 1 as [bef | bef d l out P E IH | bef d l a out P V E IH]; intros C R; cbn [ref] in R.
    - injection R as <-. reflexivity.
    - rewrite P in R. apply IH; auto. destruct C as [C | (C1 & C2 & C3)]; [auto|]. right. inversion C2; subst. split; [apply Forall_app; auto|auto].
    - rewrite P in R. unfold ref_values in R. destruct (set_lists _ _ _) as [[[v ds] z]|] eqn:SL; [|discriminate]. apply C32_lists in SL. destruct SL as (L1 & L2 & L3 & L4).
      destruct V as (V1 & V2 & V3 & V4 & V5 & V6 & now & after' & RN & RA & V7 & V8).
      assert (CARET : v_caret (t_lists a) = v_caret v) by (eapply listing_fun; [| |exact V4|exact L2]; [auto|reflexivity]).
      assert (BAR : v_bar (t_lists a) = v_bar v) by (eapply listing_fun; [| |exact V5|exact L3]; [auto|reflexivity]).
      assert (QM : v_qmark (t_lists a) = v_qmark v).
      { eapply listing_fun; [| |exact V6|exact L4]; [auto|]. intros j. unfold in_qmark, in_caret. split.
        - intros (A & x & X & Y). exists x. auto.
        - intros (x & X & Y & [Z|Z]); [|eauto]. destruct X as [[X _] _]. apply nth_error_In in X. apply in_map_iff in X. destruct X as (y & <- & _). discriminate Z. }
      destruct C as [C | (C1 & C2 & C3)].
      + match type of R with context [ex ?b _] => rewrite (C b a) in R; cbn [t_at t_percent t_star t_lists]; auto end.
      + assert (now = bef) by (symmetry; eapply raised_same; eauto). assert (after' = l) by (symmetry; inversion C2; subst; eapply raised_same; eauto). subst now after'.
        assert (PL : v_plus (t_lists a) = v_plus v) by (eapply listing_fun; [| |exact V7|exact L1]; [auto|reflexivity]).
        match type of R with context [ex ?b _] => replace b with a in R end.
        * apply IH; auto. right. split; [apply Forall_app; split; auto; apply named_normal; auto|]. split; auto. inversion C2; auto.
        * destruct a as [a1 a2 a3 a4 [a5 a6 a7 a8]], v as [b5 b6 b7 b8]. cbn in *. subst. reflexivity.
  Qed.
  Theorem C67_check : forall f z, Forall proper_item (f_deps f) -> few ex \/ (no_order (f_deps f) /\ splits_normal split) -> t_expand always suffixes ex split f z = true.
  Proof.
    intros f z P C. unfold t_expand. destruct (ref _ _ _ _ _ _ _) as [o|] eqn:R; auto. destruct (expand_deps _ _ _ _ _ _) as [[f' z']|] eqn:E; [|destruct (C67_total _ _ _ _ _ _ E)].
    destruct (C67_expand _ _ _ _ _ _ _ _ P E) as (out & X & F). assert (o = out). { eapply ref_same; eauto. destruct C as [C|[C1 C2]]; auto. right. repeat split; auto. constructor. } subst o.
    eapply all2_of; [|exact F]. apply raised_check.
  Qed.
End Ref.
Lemma same_check l : all2 (raisedb []) l l = true.
Proof. eapply all2_of; [apply raised_check|]. apply raised_all_refl. Qed.
Theorem C67_check_extra : forall ex split global f, t_extra ex split global f = true.
Proof.
  intros ex split global f. unfold t_extra. set (v := match f_vars f with Some v => v | None => _ end).
  assert (F : forall es l, l = f_deps f ++ es -> firstn (length (f_deps f)) l = f_deps f /\ skipn (length (f_deps f)) l = es).
  { intros es l ->. rewrite firstn_app, skipn_app, Nat.sub_diag, firstn_all, skipn_all. cbn. rewrite app_nil_r. auto. }
  destruct v as [t|] eqn:V.
  - assert (C : f_vars f = Some (Some t) \/ (f_vars f = None /\ f_target f = true /\ global = Some t)).
    { subst v. destruct (f_vars f); [left; congruence|right]. destruct (f_target f); [auto|discriminate]. }
    destruct (C67_extra ex split global f t C) as [A B]. destruct (existsb _ (split (ex t))) eqn:X.
    + apply existsb_exists in X. destruct X as (x & I & X). apply str_eqb_eq in X. rewrite A by (rewrite <- X; apply in_map; auto). rewrite (proj1 (F [] (f_deps f) (eq_sym (app_nil_r _)))), (proj2 (F [] (f_deps f) (eq_sym (app_nil_r _)))), same_check. reflexivity.
    + destruct B as (es & E & G).
      { intros I. apply in_map_iff in I. destruct I as (x & Y & I). assert (Z : existsb (fun x => str_eqb (d_name x) (f_name f)) (split (ex t)) = true) by (apply existsb_exists; exists x; split; auto; apply str_eqb_eq; auto). congruence. }
      destruct (F _ _ E) as [-> ->]. rewrite same_check. cbn [andb]. eapply all2_of; [|exact G]. intros x e (N & O & X1 & X2). unfold extrab. rewrite N, O, X1, X2, str_refl, eqb_reflx. reflexivity.
  - rewrite C67_extra_none. { cbn [existsb]. rewrite (proj1 (F [] (f_deps f) (eq_sym (app_nil_r _)))), (proj2 (F [] (f_deps f) (eq_sym (app_nil_r _)))), same_check. reflexivity. }
    subst v. destruct (f_vars f) as [u|]; [right; congruence|left]. split; auto. destruct (f_target f); auto.
Qed.

(** ** The samples *)
Lemma ex_few : few (w_ex false).
Proof.
  intros a b t A B C D E F. assert (X : forall n u, length u <= n -> w_ex false a u = w_ex false b u).
  { induction n as [| n IH]; intros [| c [| d u]] L; try reflexivity; [cbn in L; lia|]. cbn [length] in L. pose proof (IH u ltac:(lia)) as H1. pose proof (IH (d :: u) ltac:(cbn [length]; lia)) as H2.
    cbn [w_ex] in H2 |- *. destruct (c =?c "$"%char); [rewrite A, B, C, D, E, F, H1; reflexivity|]. f_equal. exact H2. }
  apply (X (length t)). lia.
Qed.
Lemma split_normal : splits_normal (w_split false).
Proof. intros t. unfold w_split. apply Forall_forall. intros x I. apply in_map_iff in I. destruct I as (y & <- & _). reflexivity. Qed.
Lemma draw_all {A} (Q : A -> Prop) g : (forall s, Q (fst (g s))) -> forall n s, Forall Q (fst (draw n g s)).
Proof. intros H. induction n as [| n IH]; intros s; cbn [draw]; [constructor|]. pose proof (H s) as X. destruct (g s) as [a s1]. pose proof (IH s1) as Y. destruct (draw n g s1). cbn in *. constructor; auto. Qed.
Definition good (order : bool) (d : item) : Prop := proper_item d /\ (order = false -> i_order d = false).
Lemma stem_good s t : fst (w_stem s) = Some t -> no_space t.
Proof.
  unfold w_stem. destruct (roll 4 s) as [k s']. cbn. destruct k as [|[|[|[|k]]]]; try discriminate; intros H; injection H as <-; intros c; cbn; intuition subst; reflexivity.
Qed.
Lemma item_good order s : good order (fst (w_item order s)).
Proof.
  unfold w_item. destruct (chance 45 s) as [later s1], (pick [] w_names s1) as [n s2], (pick [] w_texts s2) as [t s3]. pose proof (stem_good s3) as ST. destruct (w_stem s3) as [stem s4], (chance 35 s4) as [o s5], (chance 12 s5) as [x s6], (chance 70 s6) as [st s7].
  cbn in ST |- *. destruct later; cbn; (split; [split; cbn; [auto; try discriminate|intros u U; apply ST; exact U]|cbn; auto]). intros ->. reflexivity.
Qed.
Lemma file_good order s : Forall (good order) (f_deps (fst (w_file order s))).
Proof.
  unfold w_file, several. destruct (roll 6 s) as [k s1]. pose proof (draw_all (good order) _ (item_good order) (1 + k) s1) as X. destruct (draw (1 + k) (w_item order) s1) as [l s2]. destruct (pick _ _ s2) as [n s3], (w_stem s3) as [stem s4], (chance 70 s4) as [tg s5], (roll 5 s5) as [j s6]. exact X.
Qed.
Lemma files_follow order l : files_hold order l = true.
Proof.
  apply forallb_forall. intros s _. unfold one_file. pose proof (file_good order s) as G. destruct (w_file order s) as [f s1], (chance 50 s1) as [always s2], (roll 9 s2) as [k s3]. cbn [fst] in G. apply C67_check.
  - eapply Forall_impl; [|exact G]. intros d [D _]. exact D.
  - destruct order; [left; exact ex_few|right]. split; [|exact split_normal]. eapply Forall_impl; [|exact G]. intros d [_ D]. auto.
Qed.
Lemma extra_follow l : extra_hold l = true.
Proof. apply forallb_forall. intros s _. unfold one_extra. destruct (w_file true s) as [f s1], (roll 4 s1) as [k s2]. apply C67_check_extra. Qed.
Print Assumptions C67_check.
Print Assumptions C67_check_extra.
