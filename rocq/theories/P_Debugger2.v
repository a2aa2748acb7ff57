(** Proofs about the debugger model: breakpoint histories and stopping. *)
From Verif Require Import Base.
From Verif Require Import M_Debugger S_Debugger P_Debugger.
From Coq Require Import Sorting.Sorted.
Open Scope nat_scope.

Lemma breaks_app : forall a b, breaks (a ++ b) = breaks a + breaks b.
Proof. induction a as [|o a IH]; intros b; [reflexivity|]. destruct o; simpl; rewrite IH; reflexivity. Qed.

Lemma snoc_split : forall A (l : list A) x a y b,
  l ++ [x] = a ++ y :: b -> (b = [] /\ l = a /\ x = y) \/ exists b', b = b' ++ [x] /\ l = a ++ y :: b'.
Proof.
  intros A l x a y b H. destruct b as [|z b0] using rev_ind.
  - left. apply app_inj_tail in H. intuition.
  - right. clear IHb0. exists b0.
    assert (H' : l ++ [x] = (a ++ y :: b0) ++ [z]) by (rewrite H, <- app_assoc; reflexivity).
    apply app_inj_tail in H'. destruct H' as [-> ->]. auto.
Qed.

Lemma listed_snoc : forall ops o i t m,
  is_listed (ops ++ [o]) i t m <->
  (o = OpBreak t m /\ i = S (breaks ops)) \/
  (is_listed ops i t m /\ o <> OpDelete i /\ o <> OpDeleteAll).
Proof.
  intros ops o i t m. split.
  - intros (a & b & E & Hi & Hd). apply snoc_split in E.
    destruct E as [(-> & -> & ->)|(b' & -> & ->)].
    + left. auto.
    + right. split; [|split].
      * exists a, b'. split; [reflexivity|]. split; [exact Hi|]. intros [H|H]; apply Hd; [left|right];
          apply in_or_app; left; exact H.
      * intros ->. apply Hd. left. apply in_or_app. right. left. reflexivity.
      * intros ->. apply Hd. right. apply in_or_app. right. left. reflexivity.
  - intros [(-> & ->)|((a & b & -> & Hi & Hd) & H1 & H2)].
    + exists ops, []. split; [reflexivity|]. split; [reflexivity|]. intros [[]|[]].
    + exists a, (b ++ [o]). split; [rewrite <- app_assoc; reflexivity|]. split; [exact Hi|].
      intros [H|H]; apply in_app_or in H; destruct H as [H|[H|[]]];
        try (apply Hd; left; exact H); try (apply Hd; right; exact H); congruence.
Qed.

Lemma listed_bound : forall ops i t m, is_listed ops i t m -> 1 <= i <= breaks ops.
Proof. intros ops i t m (a & b & -> & -> & _). rewrite breaks_app. cbn. lia. Qed.

(** Numbers identify breakpoints. *)
Lemma break_unique : forall ops a b t m a' b' t' m',
  ops = a ++ OpBreak t m :: b -> ops = a' ++ OpBreak t' m' :: b' ->
  breaks a = breaks a' -> a = a' /\ t = t' /\ m = m'.
Proof.
  induction ops as [|o ops IH]; intros a b t m a' b' t' m' E E' Hb.
  - destruct a; discriminate.
  - destruct a as [|x a], a' as [|x' a']; cbn in E, E'.
    + rewrite E in E'. injection E' as -> -> _. auto.
    + rewrite E in E'. injection E' as <- _. cbn in Hb. lia.
    + rewrite E' in E. injection E as <- _. cbn in Hb. lia.
    + injection E as <- E. injection E' as <- E'.
      assert (Hb' : breaks a = breaks a') by (destruct o; cbn in Hb; lia).
      destruct (IH _ _ _ _ _ _ _ _ E E' Hb') as (-> & -> & ->). auto.
Qed.

Lemma listed_unique : forall ops i t m t' m',
  is_listed ops i t m -> is_listed ops i t' m' -> t = t' /\ m = m'.
Proof.
  intros ops i t m t' m' (a & b & E & Hi & _) (a' & b' & E' & Hi' & _).
  assert (Hb : breaks a = breaks a') by lia.
  destruct (break_unique _ _ _ _ _ _ _ _ _ E E' Hb) as (_ & H). exact H.
Qed.

(** * Lists and tracing under removal *)

Lemma without_in : forall i l e, In e (without i l) <-> In e l /\ e_num e <> i.
Proof.
  intros i l e. unfold without. rewrite filter_In. rewrite negb_true_iff, Nat.eqb_neq. reflexivity.
Qed.

Definition keyed (l : list entry) : Prop := forall e e', In e l -> In e' l -> e_num e = e_num e' -> e = e'.

Lemma keyed_without : forall l i, keyed l -> keyed (without i l).
Proof.
  intros l i K e e' H H' E. apply without_in in H. apply without_in in H'. apply K; intuition.
Qed.

Lemma find_key : forall l i e, keyed l -> In e l -> e_num e = i ->
  find (fun x => e_num x =? i) l = Some e.
Proof.
  intros l i e K Hi He. destruct (find (fun x => e_num x =? i) l) as [x|] eqn:F.
  - apply find_some in F. destruct F as [Hx Hn]. apply Nat.eqb_eq in Hn. f_equal. apply K; auto. congruence.
  - exfalso. eapply find_none in F; [|exact Hi]. cbn in F. rewrite He, Nat.eqb_refl in F. discriminate.
Qed.

(** Tracing is off, or is the mask of the latest listed breakpoint. *)
Definition latest (l : list entry) (tr : nat -> N) : Prop :=
  forall t, tr t = 0%N \/
    exists i, In (i, t, tr t) l /\ forall j m', In (j, t, m') l -> j <= i.

Lemma latest_remove : forall l tr i, keyed l -> latest l tr ->
  latest (without i l) (tracing_after_remove l tr i).
Proof.
  intros l tr i K H t. unfold tracing_after_remove.
  destruct (find (fun e => e_num e =? i) l) as [e|] eqn:F.
  - apply find_some in F. destruct F as [He Hn]. apply Nat.eqb_eq in Hn.
    assert (Hkeep : t <> e_target e -> tr t = 0%N \/
      exists j, In (j, t, tr t) (without i l) /\ forall j' m', In (j', t, m') (without i l) -> j' <= j).
    { intros Ht. destruct (H t) as [H0|(j & Hj & Hmax)]; [left; exact H0|]. right. exists j. split.
      - apply without_in. split; [exact Hj|]. cbn. intros ->. apply Ht.
        assert (E : (i, t, tr t) = e) by (apply K; auto). rewrite <- E. reflexivity.
      - intros j' m' Hj'. apply without_in in Hj'. eapply Hmax. apply Hj'. }
    destruct (negb (N.eqb (tr (e_target e)) 0)) eqn:Z.
    + destruct (Nat.eq_dec t (e_target e)) as [->|Ht].
      * rewrite updf_same. left. reflexivity.
      * rewrite updf_other by exact Ht. apply Hkeep. exact Ht.
    + destruct (Nat.eq_dec t (e_target e)) as [->|Ht].
      * left. apply negb_false_iff, N.eqb_eq in Z. exact Z.
      * apply Hkeep. exact Ht.
  - assert (E : forall e, In e l -> e_num e <> i).
    { intros e He Hn. eapply find_none in F; [|exact He]. cbn in F. rewrite Hn, Nat.eqb_refl in F. discriminate. }
    destruct (H t) as [H0|(j & Hj & Hmax)]; [left; exact H0|]. right. exists j. split.
    + apply without_in. split; [exact Hj|]. apply E. exact Hj.
    + intros j' m' Hj'. apply without_in in Hj'. eapply Hmax. apply Hj'.
Qed.

(** Every listed breakpoint is in force, and targets have at most one. *)
Definition in_force (l : list entry) (tr : nat -> N) : Prop :=
  (forall i t m, In (i, t, m) l -> tr t = m) /\
  (forall i j t m m', In (i, t, m) l -> In (j, t, m') l -> i = j).

Lemma in_force_remove : forall l tr i, keyed l -> in_force l tr ->
  in_force (without i l) (tracing_after_remove l tr i).
Proof.
  intros l tr i K [H1 H2]. split.
  - intros j t m Hj. apply without_in in Hj. destruct Hj as [Hj Hne]. cbn in Hne.
    unfold tracing_after_remove.
    destruct (find (fun e => e_num e =? i) l) as [e|] eqn:F; [|apply (H1 _ _ _ Hj)].
    apply find_some in F. destruct F as [He Hn]. apply Nat.eqb_eq in Hn.
    destruct (negb (N.eqb (tr (e_target e)) 0)); [|apply (H1 _ _ _ Hj)].
    rewrite updf_other; [apply (H1 _ _ _ Hj)|]. intros ->.
    destruct e as [[n tt] mm]. cbn in Hn, Hj. apply Hne. eapply H2; [exact Hj|]. subst n. exact He.
  - intros j j' t m m' H H'. apply without_in in H. apply without_in in H'.
    eapply H2; [apply H|apply H'].
Qed.

Lemma a_delete_from_facts : forall k i a, 
  (forall e, In e (a_list (a_delete_from a i k)) <-> In e (a_list a) /\ ~ (i <= e_num e < i + k))
  /\ a_count (a_delete_from a i k) = a_count a
  /\ a_stepping (a_delete_from a i k) = a_stepping a
  /\ a_nexting (a_delete_from a i k) = a_nexting a
  /\ (keyed (a_list a) -> keyed (a_list (a_delete_from a i k)))
  /\ (keyed (a_list a) -> latest (a_list a) (a_tr a) ->
      latest (a_list (a_delete_from a i k)) (a_tr (a_delete_from a i k)))
  /\ (keyed (a_list a) -> in_force (a_list a) (a_tr a) ->
      in_force (a_list (a_delete_from a i k)) (a_tr (a_delete_from a i k))).
Proof.
  induction k as [|k IH]; intros i a; cbn [a_delete_from].
  - split; [|auto 10]. intros e. split; [intros H; split; [exact H|lia]|intros [H _]; exact H].
  - destruct (IH (S i) (a_remove a i)) as (I1 & I2 & I3 & I4 & I5 & I6 & I7).
    split; [|split; [exact I2|split; [exact I3|split; [exact I4|split; [|split]]]]].
    + intros e. rewrite I1. unfold a_remove. cbn [a_list]. rewrite without_in. split.
      * intros ((H1 & H2) & H3). split; [exact H1|]. lia.
      * intros (H1 & H2). split; [split; [exact H1|]|]; lia.
    + intros K. apply I5. apply keyed_without. exact K.
    + intros K H. apply I6; [apply keyed_without; exact K|]. apply latest_remove; assumption.
    + intros K H. apply I7; [apply keyed_without; exact K|]. apply in_force_remove; assumption.
Qed.

Lemma a_visit_facts : forall oe a t c r,
  let a' := snd (a_visit oe a t c r) in
  a_list a' = a_list a /\ a_count a' = a_count a /\
  (a_tr a' = a_tr a \/ (a_tr a' = updf (a_tr a) t BRK_NONE /\ N.land (a_tr a t) BRK_TEMP <> 0%N)) /\
  (a_stepping a = 0 -> a_stepping a' = 0) /\ (a_nexting a = 0 -> a_nexting a' = 0).
Proof.
  intros oe a t c r. unfold a_visit, visit, enter_debugger.
  cbn [h_tracing h_stepping h_nexting].
  repeat (match goal with
          | |- context [if ?b then _ else _] =>
              lazymatch b with
              | context [if _ then _ else _] => fail
              | _ => destruct b eqn:?
              end
          end; cbn [fst snd h_tracing h_stepping h_nexting set_tracing a_list a_count a_tr a_stepping a_nexting]);
  try (destruct r; cbn [fst snd h_tracing h_stepping h_nexting set_tracing a_list a_count a_tr a_stepping a_nexting]);
  repeat split; auto; try (intros ->; reflexivity);
  try (right; split; [reflexivity|];
       match goal with H : negb (N.eqb (N.land _ BRK_TEMP) 0) = true |- _ =>
         apply negb_true_iff, N.eqb_neq in H; exact H end).
Qed.

Record ainv (ops : list dop) (a : astate) : Prop := mkAinv {
  ai_count : a_count a = breaks ops;
  ai_list : forall i t m, In (i, t, m) (a_list a) <-> is_listed ops i t m;
}.

Lemma ainv_keyed : forall ops a, ainv ops a -> keyed (a_list a).
Proof.
  intros ops a [_ H] [[i t] m] [[i' t'] m'] Hi Hi' E. cbn in E. subst i'.
  apply H in Hi. apply H in Hi'. destruct (listed_unique _ _ _ _ _ _ Hi Hi') as [-> ->]. reflexivity.
Qed.

Lemma ainv_step : forall oe ops a o, ainv ops a -> ainv (ops ++ [o]) (a_step oe a o).
Proof.
  intros oe ops a o [Hc Hl].
  assert (Hother : (forall t m, o <> OpBreak t m) -> (forall i, o <> OpDelete i) -> o <> OpDeleteAll ->
     forall a', a_count a' = a_count a -> a_list a' = a_list a -> ainv (ops ++ [o]) a').
  { intros H1 H2 H3 a' Ec El. constructor.
    - rewrite Ec, breaks_app, Hc. destruct o; cbn; try lia. exfalso. apply (H1 t m). reflexivity.
    - intros i t m. rewrite El, Hl, listed_snoc. split; [intros H|intros [[H _]|[H _]]]; auto.
      exfalso. apply (H1 t m H). }
  destruct o; cbn [a_step].
  - constructor; cbn [a_count a_list].
    + rewrite breaks_app, Hc. cbn. lia.
    + intros i t' m'. rewrite in_app_iff, Hl, listed_snoc, Hc. split.
      * intros [H|[H|[]]]; [right; repeat split; auto; discriminate|].
        injection H as <- <- <-. left. auto.
      * intros [[H ->]|[H _]]; [injection H as -> ->; right; left; reflexivity|left; exact H].
  - constructor; cbn [a_remove a_count a_list].
    + rewrite breaks_app, Hc. cbn. lia.
    + intros j t m. rewrite without_in, Hl, listed_snoc. cbn. split.
      * intros [H Hne]. right. split; [exact H|]. split; congruence.
      * intros [[H _]|(H & H1 & _)]; [discriminate|]. split; [exact H|]. congruence.
  - destruct (a_delete_from_facts (a_count a) 1 a) as (I1 & I2 & _).
    constructor.
    + rewrite I2, breaks_app, Hc. cbn. lia.
    + intros i t m. rewrite I1, Hl, listed_snoc. cbn [e_num fst]. split.
      * intros [H Hn]. exfalso. apply Hn. apply listed_bound in H. cbn. lia.
      * intros [[H _]|(_ & _ & H)]; [discriminate|congruence].
  - apply Hother; try congruence; reflexivity.
  - destruct (a_visit_facts oe a t cmds r) as (H1 & H2 & _).
    apply Hother; try congruence.
  - apply Hother; try congruence; reflexivity.
  - apply Hother; try congruence; reflexivity.
Qed.

Lemma a_run_snoc : forall oe a ops o, a_run oe a (ops ++ [o]) = a_step oe (a_run oe a ops) o.
Proof. intros. unfold a_run. rewrite fold_left_app. reflexivity. Qed.

Lemma ainv_run : forall oe ops, ainv ops (a_run oe a_init ops).
Proof.
  intros oe ops. induction ops as [|o ops IH] using rev_ind.
  - constructor; [reflexivity|]. intros i t m. cbn. split; [intros []|].
    intros (a & b & E & _). destruct a; discriminate.
  - rewrite a_run_snoc. apply ainv_step. exact IH.
Qed.

Lemma no_finish_snoc : forall ops o, no_finish (ops ++ [o]) -> no_finish ops /\ forall t, o <> OpFinish t.
Proof.
  intros ops o H. split.
  - intros t Hi. apply (H t). apply in_or_app. auto.
  - intros t ->. apply (H t). apply in_or_app. right. left. reflexivity.
Qed.

Lemma latest_run : forall oe ops, no_finish ops ->
  latest (a_list (a_run oe a_init ops)) (a_tr (a_run oe a_init ops)).
Proof.
  intros oe ops. induction ops as [|o ops IH] using rev_ind; intros NF.
  - intros t. left. reflexivity.
  - apply no_finish_snoc in NF. destruct NF as [NF No]. specialize (IH NF).
    pose proof (ainv_run oe ops) as AI. pose proof (ainv_keyed _ _ AI) as K.
    rewrite a_run_snoc. set (a := a_run oe a_init ops) in *. destruct o; cbn [a_step].
    + cbn [a_list a_tr]. intros t'. destruct (Nat.eq_dec t' t) as [->|Ht].
      * rewrite updf_same. right. exists (S (a_count a)). split; [apply in_or_app; right; left; reflexivity|].
        intros j m' Hj. apply in_app_or in Hj. destruct Hj as [Hj|[Hj|[]]].
        -- apply (ai_list _ _ AI) in Hj. apply listed_bound in Hj. rewrite (ai_count _ _ AI). lia.
        -- injection Hj as <- _. lia.
      * rewrite updf_other by exact Ht. destruct (IH t') as [H0|(i & Hi & Hm)]; [left; exact H0|].
        right. exists i. split; [apply in_or_app; left; exact Hi|]. intros j m' Hj.
        apply in_app_or in Hj. destruct Hj as [Hj|[Hj|[]]]; [eapply Hm; exact Hj|congruence].
    + cbn [a_remove a_list a_tr]. apply latest_remove; assumption.
    + destruct (a_delete_from_facts (a_count a) 1 a) as (_ & _ & _ & _ & _ & I6 & _). apply I6; assumption.
    + exfalso. apply (No t). reflexivity.
    + destruct (a_visit_facts oe a t cmds r) as (H1 & _ & [H3|(H3 & _)] & _); rewrite H1, H3; [exact IH|].
      intros t'. destruct (Nat.eq_dec t' t) as [->|Ht].
      * left. rewrite updf_same. reflexivity.
      * rewrite updf_other by exact Ht. apply IH.
    + exact IH.
    + exact IH.
Qed.

Lemma in_force_run : forall oe ops, no_finish ops -> no_temp ops -> one_per_target ops ->
  in_force (a_list (a_run oe a_init ops)) (a_tr (a_run oe a_init ops)).
Proof.
  intros oe ops. induction ops as [|o ops IH] using rev_ind; intros NF NT OP.
  - split; intros; destruct H.
  - pose proof NF as NF0. apply no_finish_snoc in NF. destruct NF as [NF No].
    assert (NT' : no_temp ops) by (intros t m Hi; apply (NT t m); apply in_or_app; auto).
    assert (OP' : one_per_target ops).
    { intros a b t m E. apply (OP a (b ++ [o]) t m). rewrite E, <- app_assoc. reflexivity. }
    specialize (IH NF NT' OP').
    pose proof (ainv_run oe ops) as AI. pose proof (ainv_keyed _ _ AI) as K.
    pose proof (latest_run oe ops NF) as LT.
    rewrite a_run_snoc. set (a := a_run oe a_init ops) in *. destruct o; cbn [a_step].
    + cbn [a_list a_tr]. assert (Hnone : forall i m', ~ In (i, t, m') (a_list a)).
      { intros i m' Hi. apply (ai_list _ _ AI) in Hi. revert Hi. apply (OP ops [] t m). reflexivity. }
      destruct IH as [H1 H2]. split.
      * intros i t' m' Hi. apply in_app_or in Hi. destruct Hi as [Hi|[Hi|[]]].
        -- rewrite updf_other; [apply (H1 _ _ _ Hi)|]. intros ->. apply (Hnone _ _ Hi).
        -- injection Hi as _ <- <-. apply updf_same.
      * intros i j t' m1 m2 Hi Hj. apply in_app_or in Hi. apply in_app_or in Hj.
        destruct Hi as [Hi|[Hi|[]]], Hj as [Hj|[Hj|[]]].
        -- eapply H2; eassumption.
        -- injection Hj as _ <- _. exfalso. apply (Hnone _ _ Hi).
        -- injection Hi as _ <- _. exfalso. apply (Hnone _ _ Hj).
        -- congruence.
    + cbn [a_remove a_list a_tr]. apply in_force_remove; assumption.
    + destruct (a_delete_from_facts (a_count a) 1 a) as (_ & _ & _ & _ & _ & _ & I7). apply I7; assumption.
    + exfalso. apply (No t). reflexivity.
    + destruct (a_visit_facts oe a t cmds r) as (H1 & _ & [H3|(H3 & H4)] & _); rewrite H1, H3; [exact IH|].
      exfalso. apply H4. destruct (LT t) as [H0|(i & Hi & _)]; [rewrite H0; reflexivity|].
      apply (ai_list _ _ AI) in Hi. destruct Hi as (p & q & E & _). apply (NT' t). rewrite E.
      apply in_or_app. right. left. reflexivity.
    + exact IH.
    + exact IH.
Qed.

Definition no_step (ops : list dop) : Prop := forall n, ~ In (OpStep n) ops.

Lemma no_step_run : forall oe ops, no_step ops ->
  a_stepping (a_run oe a_init ops) = 0 /\ a_nexting (a_run oe a_init ops) = 0.
Proof.
  intros oe ops. induction ops as [|o ops IH] using rev_ind; intros NS.
  - auto.
  - assert (NS' : no_step ops) by (intros n Hi; apply (NS n); apply in_or_app; auto).
    destruct (IH NS') as [I1 I2]. rewrite a_run_snoc. set (a := a_run oe a_init ops) in *.
    destruct o; cbn [a_step]; cbn; auto.
    + destruct (a_delete_from_facts (a_count a) 1 a) as (_ & _ & H1 & H2 & _). rewrite H1, H2. auto.
    + destruct (a_visit_facts oe a t cmds r) as (_ & _ & _ & H1 & H2). auto.
    + exfalso. apply (NS n). apply in_or_app. right. left. reflexivity.
Qed.

(** With the step counters at zero, [visit] stops exactly if the bit is set. *)
Lemma visit_stops : forall oe s t c r, h_stepping s = 0 -> h_nexting s = 0 ->
  (fst (visit oe s t c r) = true <-> N.land (h_tracing s t) (site_bit r) <> 0%N).
Proof.
  intros oe s t c r H1 H2. unfold visit. rewrite H1. cbn [Nat.ltb Nat.leb andb].
  assert (E : match r with R_before_prereq => false | R_after_prereq => false
              | R_after_cmd => false | R_step => false end = false) by (destruct r; reflexivity).
  rewrite E, orb_false_r. clear E.
  destruct (N.eqb (N.land (h_tracing s t) (site_bit r)) 0) eqn:Z; cbn [negb].
  - apply N.eqb_eq in Z. cbn. split; [discriminate|congruence].
  - apply N.eqb_neq in Z. split; [intros _; exact Z|intros _].
    assert (T : N.eqb (h_tracing s t) 0 = false).
    { apply N.eqb_neq. intros T. apply Z. rewrite T. reflexivity. }
    unfold enter_debugger. rewrite H1, H2, T. cbn.
    rewrite ?andb_false_r. cbn.
    destruct (negb (N.eqb (N.land (h_tracing s t) BRK_TEMP) 0)); [destruct r|]; reflexivity.
Qed.

Lemma visit_stops_armed : forall oe s t c r,
  N.land (h_tracing s t) (site_bit r) <> 0%N -> fst (visit oe s t c r) = true.
Proof.
  intros oe s t c r Z. unfold visit.
  destruct (N.eqb (N.land (h_tracing s t) (site_bit r)) 0) eqn:E; [apply N.eqb_eq in E; contradiction|].
  assert (T : N.eqb (h_tracing s t) 0 = false).
  { apply N.eqb_neq. intros T. apply Z. rewrite T. reflexivity. }
  cbn [negb orb]. unfold enter_debugger. rewrite T. cbn [negb]. rewrite !andb_false_r.
  destruct ((1 <? h_stepping s) || (1 <? h_nexting s)); cbn [h_tracing];
    destruct (negb (N.eqb (N.land (h_tracing s t) BRK_TEMP) 0)); destruct r; reflexivity.
Qed.

Definition bit_of (r : reason) : option nat :=
  match r with R_before_prereq => Some 0 | R_after_prereq => Some 1 | R_after_cmd => Some 2 | R_step => None end.

Lemma land_bit : forall m r b, bit_of r = Some b ->
  (N.land m (site_bit r) <> 0%N <-> N.testbit m (N.of_nat b) = true).
Proof.
  intros m r b H.
  assert (E : site_bit r = N.shiftl 1 (N.of_nat b)) by (destruct r; cbn in H; try discriminate; injection H as <-; reflexivity).
  rewrite E. split.
  - intros Hn. destruct (N.testbit m (N.of_nat b)) eqn:T; [reflexivity|]. exfalso. apply Hn.
    apply N.bits_inj. intros n. rewrite N.land_spec, N.bits_0.
    destruct (N.eq_dec n (N.of_nat b)) as [->|Hne]; [rewrite T; reflexivity|].
    destruct (N.lt_ge_cases n (N.of_nat b)) as [Hlt|Hge].
    + rewrite (N.shiftl_spec_low _ _ _ Hlt). apply andb_false_r.
    + rewrite N.shiftl_spec_high by lia.
      replace (N.testbit 1 (n - N.of_nat b)) with false; [apply andb_false_r|].
      symmetry. change 1%N with (2 ^ 0)%N. apply N.pow2_bits_false. lia.
  - intros T Hz. assert (H0 : N.testbit (N.land m (N.shiftl 1 (N.of_nat b))) (N.of_nat b) = true).
    { rewrite N.land_spec, T. rewrite N.shiftl_spec_high by lia. rewrite N.sub_diag. reflexivity. }
    rewrite Hz in H0. rewrite N.bits_0 in H0. discriminate.
Qed.
