(** The tests of S_SymlinkCheck succeed for all inputs, by the theorems of C72; so those of W_Symlink must. *)
From Coq Require Import Lia String List NArith.
From Verif Require Import Base M_Symlink S_Symlink P_Symlink Properties_Symlink S_SymlinkCheck W_Random W_Symlink.
Open Scope string_scope.
Open Scope list_scope.
Open Scope nat_scope.

Lemma upto_none r : ~ In "/"%char r -> upto r = [].
Proof. induction r as [|c r IH]; intros N; [reflexivity|]. cbn [upto]. destruct (c =?c "/") eqn:E; [apply eqc_true in E; subst; exfalso; apply N; left; reflexivity|]. apply IH. intros I. apply N. right. exact I. Qed.
Lemma upto_app a b : ~ In "/"%char a -> upto (a ++ "/"%char :: b) = "/"%char :: b.
Proof. induction a as [|c a IH]; intros N; [reflexivity|]. cbn [app upto]. destruct (c =?c "/") eqn:E; [apply eqc_true in E; subst; exfalso; apply N; left; reflexivity|]. apply IH. intros I. apply N. right. exact I. Qed.
Lemma join_other p x : (forall y, x <> "/"%char :: y) -> join p x = rev (upto (rev p)) ++ x.
Proof. intros N. unfold join. destruct x as [|c x]; [reflexivity|]. destruct c as [[] [] [] [] [] [] [] []]; try reflexivity. destruct (N x eq_refl). Qed.
Lemma join_leads p x : leads p x (join p x).
Proof.
  destruct (starts x) as [[y ->]|N]; [apply ld_root|]. rewrite (join_other p x N). destruct (last_slash p) as [k|] eqn:L.
  - destruct (last_slash_some _ _ L) as (d & b & -> & NB & _). rewrite rev_app_distr. cbn [rev]. rewrite <- app_assoc. cbn [app]. rewrite upto_app by (intros I; apply NB, in_rev; exact I). cbn [rev]. rewrite rev_involutive, <- app_assoc. apply ld_beside; assumption.
  - apply last_slash_none in L. rewrite upto_none by (intros I; apply L, in_rev; exact I). apply ld_here. exact L.
Qed.
Lemma shortb_short l pmax : shortb l pmax = true -> short (at_name l) pmax.
Proof.
  intros H p t x E. unfold at_name in E. destruct (find _ l) as [[q a]|] eqn:F; [|discriminate]. apply find_some in F. destruct F as [I _]. unfold shortb in H. rewrite forallb_forall in H. specialize (H _ I). cbn [snd] in *. rewrite E in H. apply Nat.ltb_lt. exact H.
Qed.
Lemma linksb_hops n l pmax : forall p k, linksb n l pmax p = Some k -> hops (at_name l) pmax p k.
Proof.
  induction n as [|n IH]; intros p k H; [discriminate|]. cbn [linksb] in H. destruct (at_name l p) as [| | |t [x|]] eqn:E; try (injection H as <-; apply hp_end; intros; congruence).
  - cbn zeta in H. destruct (Nat.leb_spec pmax (length (join p x))) as [G|G]; [injection H as <-; eapply hp_long; [exact E|apply join_leads|exact G]|]. destruct (linksb n l pmax (join p x)) as [r|] eqn:R; [|discriminate]. injection H as <-. eapply hp_next; [exact E|apply join_leads|exact G|apply IH; exact R].
  - injection H as <-. apply hp_stuck. exact E.
Qed.
Lemma newest_greatest m b l : newest m (b :: l) -> m = greatest l b.
Proof.
  intros [I U]. unfold greatest. assert (A : forall x, In x (b :: l) -> x <= fold_right Nat.max b l). { clear. intros x [<-|X]; induction l as [|a l IH]; cbn [fold_right]; [lia|lia|destruct X|destruct X as [->|X]; [lia|specialize (IH X); lia]]. }
  assert (B : In (fold_right Nat.max b l) (b :: l)). { clear. induction l as [|a l IH]; [left; reflexivity|]. cbn [fold_right]. destruct (Nat.max_spec a (fold_right Nat.max b l)) as [[_ ->]|[_ ->]]; [destruct IH as [IH|IH]; [left; exact IH|right; right; exact IH]|right; left; reflexivity]. }
  specialize (A _ I). specialize (U _ B). lia.
Qed.
Theorem C72_check : forall n stat l pmax name, t_links n stat l pmax name = true.
Proof.
  intros n stat l pmax name. unfold t_links. apply andb_true_iff. split.
  - destruct (C72_plain stat (at_name l) pmax n false name) as [P1 P2]. destruct (stat name) eqn:F; [rewrite P2|rewrite P2|rewrite P1]; try discriminate; auto; cbn [is_failed own_time List.length]; rewrite Nat.eqb_refl; reflexivity.
  - destruct (name_time stat (at_name l) pmax n true name) as [m ms| |] eqn:H; [|destruct (C72_bounds _ _ _ _ _ _ H)|].
    2: { destruct (shortb l pmax) eqn:S; [|reflexivity]. apply shortb_short in S. destruct (linksb n l pmax name) as [k|] eqn:K; [|reflexivity]. apply linksb_hops in K. cbn [negb orb]. apply Nat.leb_le. destruct (Nat.le_gt_cases n (length k)) as [G|G]; [exact G|]. destruct (C72_result stat _ _ _ _ n true S K G) as (m & ms & E). congruence. }
    destruct (C72_plain stat (at_name l) pmax n true name) as [P1 P2].
    destruct (is_failed (stat name)) eqn:F.
    + destruct (stat name); try discriminate. rewrite (P1 eq_refl) in H. injection H as <- <-. reflexivity.
    + assert (NF : stat name <> Failed) by (intros Q; rewrite Q in F; discriminate). destruct (Nat.ltb_spec pmax (length name)) as [G|G].
      * rewrite (P2 NF (or_intror G)) in H. injection H as <- <-. rewrite Nat.eqb_refl. reflexivity.
      * destruct (shortb l pmax) eqn:S; [|reflexivity]. apply shortb_short in S. destruct (linksb n l pmax name) as [k|] eqn:K; [|reflexivity]. apply linksb_hops in K. destruct (C72_newest _ _ _ _ _ _ _ S NF G H) as (k' & HO & NW & LM). rewrite (C72_links_unique _ _ _ _ _ HO K) in NW. rewrite (newest_greatest _ _ _ NW), Nat.eqb_refl. apply Nat.leb_le. exact LM.
Qed.
Lemma names_follow l : names_hold l = true.
Proof. apply forallb_forall. intros s _. apply C72_check. Qed.
Print Assumptions C72_check.
