From Verif Require Import Base M_Delete S_Delete.
Open Scope list_scope.
Open Scope nat_scope.

Section Proofs.
  Variable precious phony member : str -> bool.
  Variable on_error : bool.
  Notation delete_target := (delete_target precious phony member).
  Notation delete_child_targets := (delete_child_targets precious phony member).
  Notation delete_all := (delete_all precious phony member).
  Notation step := (step precious phony member on_error).
  Notation steps := (steps precious phony member on_error).
  Notation reap := (reap precious phony member on_error).
  Definition protected (f : str) : bool := precious f || phony f || member f.

  Lemma upd_same {A} (f : str -> A) n a : upd f n a n = a.
  Proof. unfold upd. rewrite str_eqb_refl. reflexivity. Qed.
  Lemma upd_other {A} (f : str -> A) n a m : m <> n -> upd f n a m = f m.
  Proof. intros H. unfold upd. apply str_eqb_neq in H. rewrite H. reflexivity. Qed.

  (** ** A relation between worlds: the second comes from the first by deleting targets in [l] *)
  Definition deletes (l : list str) (w w' : world) : Prop :=
    last w' = last w /\ kids w' = kids w /\ doe w' = doe w /\ dying w' = dying w /\ done w' = done w /\
    exists x, log w' = log w ++ x /\
      (forall f, In f x -> In f l /\ protected f = false /\ exists d, disk w f = Some d /\ n_regular d = true /\ n_time d <> last w f) /\
      (forall f, In f x -> disk w' f = None) /\ (forall f, ~ In f x -> disk w' f = disk w f) /\
      (forall f, In f l -> protected f = false -> clean (last w f) (disk w' f)).
  Lemma deletes_nil w : deletes [] w w.
  Proof. unfold deletes. do 5 (split; [reflexivity|]). exists []. rewrite app_nil_r. split; [reflexivity|]. split; [intros g []|]. split; [intros g []|]. split; [reflexivity|intros g []]. Qed.
  Lemma deletes_one w f : deletes [f] w (delete_target w f).
  Proof.
    assert (Z : (protected f = false -> clean (last w f) (disk w f)) -> deletes [f] w w).
    { intros C. unfold deletes. do 5 (split; [reflexivity|]). exists []. rewrite app_nil_r. split; [reflexivity|]. split; [intros g []|]. split; [intros g []|]. split; [reflexivity|]. intros g [<- |[]]. exact C. }
    unfold M_Delete.delete_target. destruct (precious f || phony f) eqn:E1.
    { apply Z. unfold protected. rewrite E1. discriminate. }
    destruct (member f) eqn:E2; [apply Z; unfold protected; rewrite E2, orb_true_r; discriminate|].
    assert (PF : protected f = false) by (unfold protected; rewrite E1, E2; reflexivity).
    destruct (disk w f) as [d|] eqn:D; [|apply Z; intros _ n X; congruence].
    destruct (n_regular d) eqn:R; [|apply Z; intros _ n X Y; congruence]. cbn [andb]. destruct (n_time d =? last w f) eqn:T; cbn [negb].
    { apply Z. intros _ n X Y. assert (n = d) by congruence. subst n. apply Nat.eqb_eq. exact T. }
    unfold deletes. cbn [last kids doe dying done log disk]. do 5 (split; [reflexivity|]). exists [f]. split; [reflexivity|]. split; [|split; [|split]].
    - intros g [<- |[]]. split; [left; reflexivity|]. split; [exact PF|]. exists d. apply Nat.eqb_neq in T. repeat split; assumption.
    - intros g [<- |[]]. apply upd_same.
    - intros g N. apply upd_other. intros E. apply N. left. symmetry. exact E.
    - intros g [<- |[]] _ n X. rewrite upd_same in X. discriminate.
  Qed.
  Lemma deletes_app l1 l2 w1 w2 w3 : deletes l1 w1 w2 -> deletes l2 w2 w3 -> deletes (l1 ++ l2) w1 w3.
  Proof.
    intros (A1 & A2 & A3 & A4 & A5 & x & A6 & A7 & A8 & A9 & A10) (B1 & B2 & B3 & B4 & B5 & y & B6 & B7 & B8 & B9 & B10).
    unfold deletes. do 5 (split; [congruence|]). exists (x ++ y). split; [rewrite B6, A6, app_assoc; reflexivity|].
    assert (XY : forall f, In f x -> ~ In f y) by (intros f I J; destruct (B7 f J) as (_ & _ & d & E & _); rewrite (A8 f I) in E; discriminate).
    split; [|split; [|split]].
    - intros f I. apply in_app_or in I. destruct I as [I|I].
      + destruct (A7 f I) as (J & K & L). split; [apply in_or_app; left; exact J|split; assumption].
      + destruct (B7 f I) as (J & K & d & D & L). assert (N : ~ In f x) by (intros Z; exact (XY f Z I)). rewrite (A9 f N), A1 in *. split; [apply in_or_app; right; exact J|split; [exact K|exists d; split; [exact D|exact L]]].
    - intros f I. apply in_app_or in I. destruct I as [I|I]; [|apply B8; exact I]. rewrite (B9 f (XY f I)). apply A8. exact I.
    - intros f N. rewrite B9, A9; [reflexivity| |]; intros I; apply N, in_or_app; [left|right]; exact I.
    - intros f I PF. apply in_app_or in I. destruct I as [I|I]; [|rewrite <- A1; apply B10; assumption].
      destruct (in_dec (list_eq_dec ascii_dec) f y) as [J|J]; [intros n X; rewrite (B8 f J) in X; discriminate|]. rewrite (B9 f J). apply A10; assumption.
  Qed.
  Lemma deletes_fold l : forall w, deletes l w (fold_left delete_target l w).
  Proof. induction l as [|f l IH]; intros w; [apply deletes_nil|]. cbn [fold_left]. apply (deletes_app [f] l w (delete_target w f)); [apply deletes_one|apply IH]. Qed.
  Definition targets (k : kid) : list str := k_file k :: k_also k.
  Definition live (k : kid) : bool := negb (k_deleted k) && k_pid k.
  Lemma deletes_child w k : deletes (if live k then targets k else []) w (fst (delete_child_targets w k)).
  Proof.
    unfold M_Delete.delete_child_targets, live. destruct (k_deleted k); [apply deletes_nil|]. cbn [orb negb andb]. destruct (k_pid k); [|apply deletes_nil]. cbn [negb fst]. apply deletes_fold.
  Qed.
  Lemma child_same w k : k_file (snd (delete_child_targets w k)) = k_file k /\ k_also (snd (delete_child_targets w k)) = k_also k.
  Proof. unfold M_Delete.delete_child_targets. destruct (k_deleted k || negb (k_pid k)); split; reflexivity. Qed.
  Lemma deletes_all l : forall w, deletes (flat_map (fun k => if live k then targets k else []) l) w (fst (delete_all w l)) /\
    Forall2 (fun k k' => k_file k' = k_file k /\ k_also k' = k_also k) l (snd (delete_all w l)).
  Proof.
    induction l as [|k l IH]; intros w; cbn [M_Delete.delete_all flat_map]; [split; [apply deletes_nil|constructor]|].
    pose proof (deletes_child w k) as D. pose proof (child_same w k) as E. destruct (delete_child_targets w k) as [w1 k'] eqn:Q. cbn [fst snd] in *.
    destruct (IH w1) as [I1 I2]. destruct (delete_all w1 l) as [w2 l''] eqn:Q2. cbn [fst snd] in *. split; [eapply deletes_app; eassumption|constructor; assumption].
  Qed.

  Lemma take_spec f l : forall a k b, take f l = Some (a, k, b) -> l = a ++ k :: b /\ k_file k = f.
  Proof.
    induction l as [|x l IH]; intros a k b H; cbn [take] in H; [discriminate|]. destruct (str_eqb f (k_file x)) eqn:E.
    - injection H as <- <- <-. apply str_eqb_eq in E. split; [reflexivity|symmetry; exact E].
    - destruct (take f l) as [[[a' k'] b']|]; [|discriminate]. injection H as <- <- <-. destruct (IH a' k' b' eq_refl) as [-> F]. split; [reflexivity|exact F].
  Qed.

  (** ** One event *)
  Definition same_kid (k k' : kid) : Prop := k_file k' = k_file k /\ k_also k' = k_also k.
  Definition effect (e : event) (w w' : world) : Prop :=
    exists x, log w' = log w ++ x /\
      (forall f, In f x -> exists k d, In k (kids w) /\ In f (targets k) /\ fails (k_file k) e /\ protected f = false /\ disk w f = Some d /\ n_regular d = true /\ n_time d <> last w f) /\
      (forall f, In f x -> disk w' f = None) /\
      (forall f, ~ In f x -> ~ changes f e -> disk w' f = disk w f) /\
      (forall f, last w' f = last w f \/ (e = Look f /\ last w f = unknown_mtime /\ last w' f = match disk w f with Some d => n_time d | None => nonexistent_mtime end)) /\
      (forall k', In k' (kids w') -> (exists k, In k (kids w) /\ same_kid k k') \/ exists f also pid, e = Start f also pid /\ k' = mkkid f also pid false) /\
      (doe w' = doe w \/ doe w' = Some (match doe w with Some b => b | None => on_error end)).
  Lemma effect_deletes e (l : list str) w w1 w' : deletes l w w1 -> disk w' = disk w1 -> log w' = log w1 -> last w' = last w1 ->
    (doe w' = doe w \/ doe w' = Some (match doe w with Some b => b | None => on_error end)) ->
    (forall f, In f l -> exists k, In k (kids w) /\ In f (targets k) /\ fails (k_file k) e) ->
    (forall k', In k' (kids w') -> exists k, In k (kids w) /\ same_kid k k') -> effect e w w'.
  Proof.
    intros (A1 & A2 & A3 & A4 & A5 & x & A6 & A7 & A8 & A9 & A10) E1 E2 E3 E4 K1 K2. exists x. rewrite E1, E2, E3. split; [exact A6|]. split; [|split; [exact A8|split; [|split; [|split]]]].
    - intros f I. destruct (A7 f I) as (J & PF & d & D & R & N). destruct (K1 f J) as (k & K & T & F). exists k, d. repeat split; assumption.
    - intros f N _. apply A9. exact N.
    - intros f. left. rewrite A1. reflexivity.
    - intros k' I. left. apply K2. exact I.
    - exact E4.
  Qed.
  Lemma live_in k f : In f (if live k then targets k else []) -> In f (targets k).
  Proof. destruct (live k); [trivial|intros []]. Qed.
  Lemma kept_kids (a b : list kid) k : forall k', In k' (a ++ b) -> exists k0, In k0 (a ++ k :: b) /\ same_kid k0 k'.
  Proof. intros k' I. exists k'. split; [|split; reflexivity]. apply in_app_or in I. apply in_or_app. destruct I as [I|I]; [left; exact I|right; right; exact I]. Qed.
  Lemma step_effect w e w' : step w e = Some w' -> effect e w w'.
  Proof.
    assert (SAME : forall w w', disk w' = disk w -> log w' = log w -> last w' = last w -> (doe w' = doe w \/ doe w' = Some (match doe w with Some b => b | None => on_error end)) ->
      (forall k', In k' (kids w') -> exists k, In k (kids w) /\ same_kid k k') -> effect e w w').
    { intros v v' A B C D K. apply (effect_deletes e [] v v v'); try assumption. - apply deletes_nil. - intros f []. }
    destruct e as [f|f also pid|f d|f en|user]; cbn [M_Delete.step]; intros H.
    - destruct (last w f =? unknown_mtime) eqn:E; injection H as <-; [|apply SAME; try reflexivity; [left; reflexivity|intros k' I; exists k'; split; [exact I|split; reflexivity]]].
      exists []. cbn [log disk last kids doe]. rewrite app_nil_r. split; [reflexivity|]. split; [intros g []|]. split; [intros g []|]. split; [reflexivity|]. split; [|split; [|left; reflexivity]].
      + intros g. unfold upd. destruct (str_eqb g f) eqn:Q; [|left; reflexivity]. apply str_eqb_eq in Q. subst g. right. split; [reflexivity|]. split; [apply Nat.eqb_eq; exact E|reflexivity].
      + intros k' I. left. exists k'. split; [exact I|split; reflexivity].
    - destruct (dying w); [discriminate|]. destruct (take f (kids w)); [discriminate|]. injection H as <-. exists []. cbn [set_kids log disk last kids doe]. rewrite app_nil_r.
      split; [reflexivity|]. split; [intros g []|]. split; [intros g []|]. split; [reflexivity|]. split; [left; reflexivity|]. split; [|left; reflexivity].
      intros k' [<- |I]; [right; exists f, also, pid; split; reflexivity|left; exists k'; split; [exact I|split; reflexivity]].
    - assert (W : w' = mkworld (upd (disk w) f d) (last w) (kids w) (doe w) (dying w) (done w) (log w)) by (destruct d as [n|]; [destruct (n_time n <? 3); [discriminate|]|]; injection H as <-; reflexivity). subst w'. clear H.
      exists []. cbn [log disk last kids doe]. rewrite app_nil_r. split; [reflexivity|]. split; [intros g []|]. split; [intros g []|]. split; [|split; [left; reflexivity|split; [|left; reflexivity]]].
      + intros g _ N. apply upd_other. intros E. apply N. exists d. rewrite E. reflexivity.
      + intros k' I. left. exists k'. split; [exact I|split; reflexivity].
    - destruct (take f (kids w)) as [[[a k] b]|] eqn:T; [|discriminate]. injection H as <-. apply take_spec in T. destruct T as [T F]. subst f.
      assert (IK : In k (kids w)) by (rewrite T; apply in_or_app; right; left; reflexivity).
      assert (KK : forall k', In k' (a ++ b) -> exists k0, In k0 (kids w) /\ same_kid k0 k') by (rewrite T; apply kept_kids).
      assert (DEL : forall w0 w', disk w0 = disk w -> last w0 = last w -> log w0 = log w -> kids w0 = kids w -> w' = set_kids (fst (delete_child_targets w0 k)) (a ++ b) -> fails (k_file k) (Reap (k_file k) en) ->
        (doe w0 = doe w \/ doe w0 = Some (match doe w with Some b => b | None => on_error end)) -> effect (Reap (k_file k) en) w w').
      { intros w0 v A1 A2 A3 A4 -> FF DD. pose proof (deletes_child w0 k) as D.
        assert (E : effect (Reap (k_file k) en) w0 (set_kids (fst (delete_child_targets w0 k)) (a ++ b))).
        { eapply effect_deletes; [exact D|reflexivity|reflexivity|reflexivity| | |].
          - left. destruct D as (_ & _ & D & _). exact D.
          - intros f I. exists k. split; [rewrite A4; exact IK|]. split; [apply live_in; exact I|exact FF].
          - cbn [kids set_kids]. rewrite A4. exact KK. }
        destruct E as (x & X1 & X2 & X3 & X4 & X5 & X6 & X7). exists x. rewrite A1, A2, A3, A4 in *. split; [exact X1|]. split; [exact X2|]. split; [exact X3|]. split; [exact X4|]. split; [exact X5|]. split; [exact X6|].
        destruct D as (_ & _ & D3 & _). cbn [doe set_kids]. rewrite D3. exact DD. }
      destruct en as [sg| |s]; cbn [M_Delete.reap].
      + cbn [set_doe]. set (w1 := mkworld _ _ _ _ _ _ _). destruct (sg || _).
        * apply (DEL w1); try reflexivity; [right; left; exists sg; reflexivity|right; reflexivity].
        * apply SAME; try reflexivity; [right; reflexivity|exact KK].
      + apply SAME; try reflexivity; [left; reflexivity|exact KK].
      + destruct (dying w) eqn:DY.
        * apply (DEL (finish w (k_file k) false)); try reflexivity; [right; right; exists s; reflexivity|left; reflexivity].
        * destruct s.
          -- apply SAME; try reflexivity; [left; reflexivity|intros k' I; exists k'; split; [exact I|split; reflexivity]].
          -- apply SAME; try reflexivity; [left; reflexivity|]. cbn [set_kids kids]. intros k' I. apply in_app_or in I. destruct I as [I|[<- |I]].
             ++ apply KK. apply in_or_app. left. exact I.
             ++ exists k. split; [exact IK|split; reflexivity].
             ++ apply KK. apply in_or_app. right. exact I.
          -- apply (DEL (finish w (k_file k) false)); try reflexivity; [right; right; exists Cannot; reflexivity|left; reflexivity].
    - destruct user.
      + set (w1 := mkworld _ _ _ _ true _ _) in H. destruct (delete_all w1 (kids w1)) as [w2 l] eqn:Q. injection H as <-. destruct (deletes_all (kids w1) w1) as [D F]. rewrite Q in D, F. cbn [fst snd] in D, F.
        assert (E : effect (Fatal true) w1 (set_kids w2 l)).
        { eapply effect_deletes; [exact D|reflexivity|reflexivity|reflexivity| | |].
          - left. destruct D as (_ & _ & D & _). exact D.
          - intros f I. apply in_flat_map in I. destruct I as (k & K & I). exists k. split; [exact K|]. split; [apply live_in; exact I|left; reflexivity].
          - cbn [kids set_kids]. intros k' I. clear -F I. induction F as [|k k1 l1 l2 S0 F IH]; [destruct I|]. destruct I as [<- |I]; [exists k; split; [left; reflexivity|exact S0]|]. destruct (IH I) as (k0 & J & K). exists k0. split; [right; exact J|exact K]. }
        exact E.
      + injection H as <-. apply SAME; try reflexivity; [left; reflexivity|intros k' I; exists k'; split; [exact I|split; reflexivity]].
  Qed.
  Lemma steps_app l1 : forall w l2, steps w (l1 ++ l2) = match steps w l1 with Some w' => steps w' l2 | None => None end.
  Proof. induction l1 as [|e l IH]; intros w l2; [reflexivity|]. cbn [app M_Delete.steps]. destruct (step w e); [apply IH|reflexivity]. Qed.
End Proofs.
