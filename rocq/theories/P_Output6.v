(** Where the lines about directories may be. *)
From Verif Require Import Base M_Output S_Output P_Output.
Open Scope list_scope.
Open Scope nat_scope.

Section Proofs.
  Variable cfg : config.
  Definition proper (e : entry) : Prop :=
    e_what e = Enter \/ e_what e = Leave -> c_print cfg = true /\ e_dump e = per_dump (c_mode cfg).
  Definition proper_make (M : make) : Prop :=
    (m_traced M = true -> c_print cfg = true /\ per_dump (c_mode cfg) = false) /\
    match m_task M with Some (T_pump _ _ _ l) => Forall proper l | _ => True end.

  Lemma start_proper : forall m o tr o' tr' l, output_start cfg m o tr = (o', tr', l) ->
    (tr = true -> c_print cfg = true /\ per_dump (c_mode cfg) = false) ->
    (tr' = true -> c_print cfg = true /\ per_dump (c_mode cfg) = false) /\ Forall proper l.
  Proof.
    intros m o tr o' tr' l H T. unfold output_start in H. destruct (per_dump (c_mode cfg)) eqn:P, tr, (c_print cfg) eqn:C; cbn in H; injection H as <- <- <-; split; auto.
    constructor; auto. intros _. cbn. rewrite P. auto.
  Qed.
  Lemma put_proper : forall m c o err t o' l, put m c o err t = (o', l) -> Forall proper l.
  Proof.
    intros m c o err t o' l H. assert (X : proper (mkentry m (Some c) false (Text err t))) by (intros [Y|Y]; discriminate).
    unfold put in H. destruct (o_sync o), (err && negb (o_same o)); try (destruct (o_err o)); try (destruct (o_out o)); injection H as <- <-; auto.
  Qed.
  Lemma dump_proper : forall m c o, Forall proper (dump_entries cfg m c o).
  Proof.
    intros m c o. assert (P : forall err f, Forall proper (pump cfg m c err f)).
    { intros err [s|]; cbn; auto. apply Forall_forall. intros e I. apply in_map_iff in I. destruct I as (t & <- & _). intros [Y|Y]; discriminate. }
    unfold dump_entries. destruct (c_print cfg && per_dump (c_mode cfg)) eqn:E; repeat (apply Forall_app; split); auto;
      apply andb_true_iff in E; destruct E as [E1 E2]; constructor; auto; intros _; cbn; auto.
  Qed.

  Lemma act_proper : forall m M e M' l, proper_make M -> act cfg m M e = Some (M', l) -> proper_make M' /\ Forall proper l.
  Proof.
    intros m M e M' l [T P] H.
    assert (B : forall c k cl, proper_make (begin_dump cfg M c k cl)).
    { intros. unfold begin_dump. destruct (some_output (k_out k)); split; cbn; auto. }
    destruct e as [c | c r | c err t | c | c err t | c | c | c | ok | | |]; cbn in H.
    - destruct (m_kids M c); try discriminate. destruct (idle M); try discriminate. injection H as <- <-. split; auto. split; cbn; auto.
    - destruct (at_rest M c); try discriminate. injection H as <- <-. split; auto. match goal with |- context [if ?b then _ else _] => destruct b end; auto. split; cbn; auto.
    - destruct (at_rest M c); try discriminate. destruct t; try discriminate. destruct (output_start cfg m (k_out k) (m_traced M)) as [[o1 tr] es1] eqn:O.
      destruct (put m c o1 err (a :: t)) eqn:U. injection H as <- <-. apply start_proper in O; auto. apply put_proper in U. destruct O. split; [split; cbn; auto|]. apply Forall_app. auto.
    - destruct (at_rest M c); try discriminate. destruct (k_ready k); try discriminate. destruct (output_start cfg m (k_out k) (m_traced M)) as [[o1 tr] es1] eqn:O.
      injection H as <- <-. apply start_proper in O; auto. destruct O. split; [split; cbn; auto|]. auto.
    - destruct (live M c); try discriminate. destruct (k_runs k); try discriminate. destruct (put m c (k_out k) err t) eqn:U. injection H as <- <-. apply put_proper in U. split; auto. split; cbn; auto.
    - destruct (live M c); try discriminate. destruct (k_runs k); try discriminate. injection H as <- <-. split; auto. split; cbn; auto.
    - destruct (at_rest M c); try discriminate. assert (X : proper_make M) by (split; auto). destruct (c_mode cfg); injection H as <- <-; split; auto.
    - destruct (at_rest M c); try discriminate. injection H as <- <-. auto.
    - destruct (m_task M) as [[c cl | c cl h p]|] eqn:E; try discriminate. destruct (m_kids M c); try discriminate. injection H as <- <-. split; auto. split; cbn; auto. apply dump_proper.
    - destruct (m_task M) as [[c cl | c cl h [| x p]]|] eqn:E; try discriminate. injection H as <- <-. inversion P. split; auto. split; cbn; auto.
    - destruct (m_task M) as [[c cl | c cl h [| x p]]|] eqn:E; try discriminate. destruct (m_kids M c); try discriminate. injection H as <- <-. split; auto. split; cbn; auto.
    - destruct (idle M); try discriminate. injection H as <- <-. split; [split; cbn; auto|]. destruct (m_traced M); auto. destruct (T eq_refl) as [T1 T2]. constructor; auto. intros _. cbn. auto.
  Qed.

  Lemma run_proper : forall es st, run cfg init es = Some st -> (forall m, proper_make (s_makes st m)) /\ Forall proper (s_term st).
  Proof.
    induction es as [| [m e] es IH] using rev_ind; intros st H.
    - cbn in H. injection H as <-. split; [|constructor]. intros m. split; cbn; auto. discriminate.
    - apply run_snoc in H. destruct H as (st1 & H1 & H2). apply step_inv in H2. destruct H2 as (M' & l & A & EM & ET & _). destruct (IH _ H1) as [I1 I2].
      apply act_proper in A; auto. destruct A as [A1 A2]. rewrite EM, ET. split; [|apply Forall_app; auto]. intros m'. unfold upd. destruct (m' =? m); auto.
  Qed.
End Proofs.
