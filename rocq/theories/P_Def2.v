From Verif Require Import Base S_Text M_Text M_Var S_Var M_Expand S_Expand S_Eval M_Def S_Def P_Text P_Var P_Def.
Open Scope string_scope.
Open Scope list_scope.
Open Scope nat_scope.

Lemma upgrade_rank : forall e o, onum (upgrade e o) = rank e o.
Proof. intros [] []; reflexivity. Qed.
Lemma rank_upgrade : forall e o, rank e (upgrade e o) = rank e o.
Proof. intros [] []; reflexivity. Qed.

Lemma define_flagged_other : forall e n p o r a c s m, m <> n -> set_find m (define_flagged e n p o r a c s) = set_find m s.
Proof.
  intros e n p o r a c s m H. unfold define_flagged, define_in_set.
  destruct (set_find n s) as [v|]; rewrite !find_put_other by exact H; reflexivity.
Qed.
Lemma define_flagged_same : forall e n p o r a c s,
  exists w, set_find n (define_flagged e n p o r a c s) = Some w /\ v_append w = a /\ v_conditional w = c /\
  match set_find n s with
  | Some v => (rank e (v_origin v) <= rank e o -> v_value w = p /\ v_recursive w = r /\ rank e (v_origin w) = rank e o) /\
              (rank e o < rank e (v_origin v) -> v_value w = v_value v /\ v_recursive w = v_recursive v /\
                 rank e (v_origin w) = rank e (v_origin v))
  | None => v_value w = p /\ v_recursive w = r /\ rank e (v_origin w) = rank e o
  end.
Proof.
  intros e n p o r a c s. unfold define_flagged, define_in_set.
  destruct (set_find n s) as [v|] eqn:E; rewrite find_put_same; eexists; (split; [reflexivity|]); (split; [reflexivity|]); (split; [reflexivity|]).
  - rewrite !upgrade_rank. destruct (rank e (v_origin v) <=? rank e o) eqn:L.
    + apply Nat.leb_le in L. split; [|lia]. intros _. cbn. rewrite rank_upgrade. auto.
    + apply Nat.leb_gt in L. split; [lia|]. intros _. cbn. rewrite rank_upgrade. auto.
  - cbn. rewrite rank_upgrade. auto.
Qed.

Lemma joined_cases : forall old new : str, joined old new = match old with [] => new | a :: l => a :: l ++ c_sp :: new end.
Proof. intros [|a l] new; reflexivity. Qed.

Section Effect.
  Variable ftab : str -> option fent.
  Variable fuel : nat.
  Variable e : bool.
  Variable sh : str -> str.

  (** The outcome of a definition in one set, the place where it is looked up being that set. *)
  Definition done_to (s : vset) (X : str -> str -> Prop) (n : str) (f : flavor) (v : str) (o : origin) (s' : vset) : Prop :=
    (forall m, m <> n -> set_find m s' = set_find m s) /\
    ((s' = s /\ assigned X sh (view (set_find n s)) f v (view (set_find n s))) \/
     exists w new, set_find n s' = Some w /\ assigned X sh (view (set_find n s)) f v (Some new) /\
       match set_find n s with
       | Some old => (rank e (v_origin old) <= rank e o -> Some new = view (Some w) /\ rank e (v_origin w) = rank e o) /\
                     (rank e o < rank e (v_origin old) ->
                        view (Some w) = view (Some old) /\ rank e (v_origin w) = rank e (v_origin old))
       | None => Some new = view (Some w) /\ rank e (v_origin w) = rank e o
       end).

  Lemma done_define : forall s (X : str -> str -> Prop) n f v o p r a c,
    assigned X sh (view (set_find n s)) f v (Some (p, r)) ->
    done_to s X n f v o (define_flagged e n p o r a c s).
  Proof.
    intros s X n f v o p r a c H. split; [intros m Hm; apply define_flagged_other; exact Hm|]. right.
    destruct (define_flagged_same e n p o r a c s) as (w & Hw & _ & _ & K). exists w, (p, r). split; [exact Hw|]. split; [exact H|].
    destruct (set_find n s) as [old|].
    - destruct K as [K1 K2]. split; intros L; [destruct (K1 L) as (A & B & C)|destruct (K2 L) as (A & B & C)]; cbn; rewrite A, B; auto.
    - destruct K as (A & B & C). cbn. rewrite A, B. auto.
  Qed.
  Lemma done_nothing : forall s (X : str -> str -> Prop) n f v o,
    assigned X sh (view (set_find n s)) f v (view (set_find n s)) -> done_to s X n f v o s.
  Proof. intros s X n f v o H. split; [reflexivity|]. left. split; [reflexivity|exact H]. Qed.

  Lemma lookup_one : forall n nd, lookup_variable n [nd] = match set_find n (n_set nd) with Some v => Some (n_id nd, v) | None => None end.
  Proof. intros n nd. unfold lookup_variable. cbn. destruct (set_find n (n_set nd)); reflexivity. Qed.

  Lemma global_effect : forall g st n v o f st' c', f <> f_append_value ->
    do_variable_definition ftab fuel e sh [g] st n v o f false = XOk (st', c') ->
    exists g', c' = [g'] /\ n_id g' = n_id g /\ n_parent g' = n_parent g /\
      done_to (n_set g) (fun t w => exists st', expand ftab true fuel [g] st t = XOk (st', w)) n f v o (n_set g').
  Proof.
    intros g st n v o f st' c' Hf H.
    set (X := fun t w => exists st', expand ftab true fuel [g] st t = XOk (st', w)).
    assert (D : forall p r a c, assigned X sh (view (set_find n (n_set g))) f v (Some (p, r)) ->
      exists g', [with_set g (define_flagged e n p o r a c (n_set g))] = [g'] /\ n_id g' = n_id g /\ n_parent g' = n_parent g /\
        done_to (n_set g) X n f v o (n_set g')).
    { intros p r a c Ha. eexists. split; [reflexivity|]. split; [reflexivity|]. split; [reflexivity|].
      cbn [n_set with_set]. apply done_define. exact Ha. }
    assert (N : assigned X sh (view (set_find n (n_set g))) f v (view (set_find n (n_set g))) ->
      exists g', [g] = [g'] /\ n_id g' = n_id g /\ n_parent g' = n_parent g /\ done_to (n_set g) X n f v o (n_set g')).
    { intros Ha. exists g. split; [reflexivity|]. split; [reflexivity|]. split; [reflexivity|]. apply done_nothing. exact Ha. }
    unfold do_variable_definition in H. cbn [on_last] in H. rewrite lookup_one in H.
    destruct f; try congruence.
    - destruct (expand ftab true fuel [g] st v) as [[st1 p]|?|] eqn:Ex; try discriminate. cbn in H. injection H as <- <-.
      apply D. apply as_simple. exists st1. exact Ex.
    - injection H as <- <-. apply D. apply as_recursive.
    - destruct (set_find n (n_set g)) as [w|] eqn:Ef.
      + cbn [andb] in H. destruct (v_recursive w) eqn:Er; cbn [xbind] in H.
        * destruct v as [|c v].
          -- injection H as <- <-. apply N. cbn. rewrite Er. eapply as_app_rec_empty. reflexivity.
          -- injection H as <- <-. apply D. cbn [view]. rewrite Er.
             rewrite <- (joined_cases (v_value w) (c :: v)).
             eapply as_app_rec; [reflexivity|discriminate].
        * destruct (expand ftab true fuel [g] st v) as [[st1 p]|?|] eqn:Ex; try discriminate. cbn [xbind] in H.
          destruct p as [|c p].
          -- injection H as <- <-. apply N. cbn. rewrite Er. eapply as_app_simple_empty; [reflexivity|]. exists st1. exact Ex.
          -- injection H as <- <-. apply D. cbn [view]. rewrite Er.
             rewrite <- (joined_cases (v_value w) (c :: p)).
             eapply as_app_simple; [reflexivity| |discriminate]. exists st1. exact Ex.
      + cbn [andb] in H. injection H as <- <-. apply D. apply as_app_new. reflexivity.
    - destruct (set_find n (n_set g)) as [w|] eqn:Ef.
      + injection H as <- <-. apply N. apply as_cond_old. discriminate.
      + injection H as <- <-. apply D. apply as_cond_new. reflexivity.
    - destruct (expand ftab true fuel [g] st v) as [[st1 p]|?|] eqn:Ex; try discriminate. cbn in H. injection H as <- <-.
      apply D. apply as_shell. exists st1. exact Ex.
  Qed.
End Effect.
