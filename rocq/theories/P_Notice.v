(** What settling a file does to it. *)
From Verif Require Import Base M_Build S_Build.

Lemma time_eqb_eq : forall a b, time_eqb a b = true <-> a = b.
Proof. intros [|n|] [|m|]; cbn; split; intros H; try discriminate; try reflexivity; [apply Nat.eqb_eq in H; subst; reflexivity|injection H as ->; apply Nat.eqb_refl]. Qed.
Lemma cs_eqb_eq : forall a b, cs_eqb a b = true <-> a = b.
Proof. intros [] []; cbn; split; intros H; try discriminate; reflexivity. Qed.
Lemma cs_eqb_neq : forall a b, cs_eqb a b = false <-> a <> b.
Proof. intros a b. rewrite <- cs_eqb_eq. destruct (cs_eqb a b); split; intros H; congruence. Qed.
Lemma bad_false : forall a, bad a = false <-> a = Success.
Proof. intros []; cbn; split; intros H; try discriminate; reflexivity. Qed.
Lemma newer_later : forall a b, newer a b = true <-> later a b.
Proof.
  intros [|n|] [|k|]; cbn; split; intros H; try discriminate; try (inversion H; subst; congruence); try (constructor; congruence).
  - apply Nat.ltb_lt in H. constructor. exact H.
  - inversion H; subst. apply Nat.ltb_lt. assumption.
Qed.
Lemma not_later : forall a b, newer a b = false <-> ~ later a b.
Proof. intros a b. rewrite <- newer_later. destruct (newer a b); split; congruence. Qed.
Lemma newer_irrefl : forall a, newer a a = false.
Proof. intros [|n|]; cbn; try reflexivity. apply Nat.ltb_irrefl. Qed.


Section Notice.
  Variable phony is_target cmds double : nat -> bool.
  Variable how : mode.
  Variable world : nat -> tick.
  Notation base := (fun f : nat => f).
  Notation chain := (fun f : nat => [f]).
  Notation notice' := (notice_finished_file phony is_target cmds double base chain how world).
  (** Recipes write their own targets only. *)
  Definition own : Prop := forall c f D n, n <> f -> t_effect (world c) f D n = D n.
  Record noticed (f : nat) (st st' : state) : Prop := mknoticed {
    no_other : forall n, n <> f -> s_files st' n = s_files st n;
    no_deps : f_deps (s_files st' f) = f_deps (s_files st f);
    no_cons : f_considered (s_files st' f) = f_considered (s_files st f);
    no_updating : f_updating (s_files st' f) = f_updating (s_files st f);
    no_inter : f_intermediate (s_files st' f) = f_intermediate (s_files st f);
    no_tried : f_tried (s_files st' f) = f_tried (s_files st f);
    no_state : f_state (s_files st' f) = Finished;
    no_updated : f_updated (s_files st' f) = true;
    no_jobs : s_jobs st' = s_jobs st;
    no_trace : s_trace st' = s_trace st;
    no_pass : s_pass st' = s_pass st;
    no_clock : s_clock st <= s_clock st';
    no_quiet : how <> Touch -> s_clock st' = s_clock st;
    no_disk : own -> forall n, n <> f -> s_disk st' n = s_disk st n;
    no_disk2 : how <> Touch \/ cmds f = false \/ f_status (s_files st f) <> Success -> s_disk st' = s_disk st;
    no_status : f_status (s_files st' f) <> NoAttempt;
    no_status2 : how <> Touch \/ cmds f = false \/ f_status (s_files st f) <> Success -> f_status (s_files st' f) = match f_status (s_files st f) with NoAttempt => Success | u => u end;
    no_phony : phony f = true -> f_mtime (s_files st' f) = f_mtime (s_files st f);
    no_ran : how = Normal -> f_state (s_files st f) = Running -> phony f = false -> cmds f = true -> f_mtime (s_files st' f) = None;
    no_dry : how = Dry \/ how = Ask -> f_state (s_files st f) = Running -> phony f = false -> cmds f = true -> f_mtime (s_files st' f) = Some New;
    no_idle : how <> Touch \/ cmds f = false \/ f_status (s_files st f) <> Success -> f_state (s_files st f) <> Running -> f_mtime (s_files st' f) = f_mtime (s_files st f) }.
  Lemma notice_noticed : forall f st, noticed f st (notice' f st).
  Proof.
    intros f st.
    assert (MX : forall m, match m with Some a => match m with Some b => if newer b a then Some b else Some a | None => None end | None => None end = m).
    { intros [a|]; [rewrite newer_irrefl; reflexivity|reflexivity]. }
    unfold notice_finished_file.
    cbn [upd s_files s_disk s_jobs s_clock s_trace s_pass]. rewrite !Nat.eqb_refl.
    cbn [with_updated with_state f_status].
    set (touched := (match how with Touch => true | _ => false end) && (us_rank (f_status (s_files st f)) =? 0) && negb (phony f) && cmds f).
    assert (TN : how <> Touch \/ cmds f = false \/ f_status (s_files st f) <> Success -> touched = false).
    { intros [K|[K|K]]; unfold touched; [destruct how; try reflexivity; contradiction|rewrite K; rewrite !Bool.andb_false_r; reflexivity|]. destruct (f_status (s_files st f)); try contradiction; cbn; rewrite ?Bool.andb_false_r; reflexivity. }
    assert (TP : touched = true -> phony f = false /\ how = Touch). { unfold touched. intros K. destruct how, (phony f); cbn in K; rewrite ?Bool.andb_false_r in K; try discriminate K. auto. }
    clearbody touched.
    split.
    all: unfold upd_all; cbn [fold_left forallb max_mtime].
    all: destruct touched eqn:TE.
    all: destruct (cs_eqb (f_state (s_files st f)) Running) eqn:RE.
    all: destruct (phony f) eqn:PE.
    all: cbn [andb orb negb].
    all: try (exfalso; destruct (TP eq_refl) as [Z _]; discriminate Z).
    all: destruct (double f); cbn [upd s_files s_disk s_jobs s_clock s_trace s_pass].
    all: rewrite ?Nat.eqb_refl; cbn [f_updated f_status f_state f_mtime f_deps with_mtime with_status with_updated with_state andb f_considered f_updating f_intermediate f_tried]; rewrite ?MX.
    all: try match goal with |- context [us_rank ?u =? 1] => destruct (us_rank u =? 1) eqn:UE end.
    all: cbn [upd s_files s_disk s_jobs s_clock s_trace s_pass]; rewrite ?Nat.eqb_refl; cbn [f_updated f_status f_state f_mtime f_deps with_mtime with_status with_updated with_state andb f_considered f_updating f_intermediate f_tried]; rewrite ?MX.
    all: try reflexivity; try lia.
    all: try (intros n N; apply Nat.eqb_neq in N; rewrite ?N; reflexivity).
    all: try (intros H; exfalso; apply TN in H; discriminate H).
    all: try (intros H; exfalso; destruct (TP eq_refl) as [_ Z]; exact (H Z)).
    all: try (intros O n N; destruct (t_ok (world (s_clock st))); try reflexivity; apply O; exact N).
    all: try discriminate; try (intros; congruence).
    all: try (intros H; rewrite H in UE; discriminate UE).
    all: try (intros _; destruct (f_status (s_files st f)); try reflexivity; discriminate UE).
    all: try (destruct (t_ok (world (s_clock st))); discriminate).
    all: try (intros -> _ _ ->; rewrite Bool.andb_false_r; reflexivity).
    all: try (intros [-> | ->] _ _ ->; reflexivity).
    all: try (intros _ R; apply cs_eqb_eq in RE; contradiction).
    all: try (intros _ R; apply cs_eqb_neq in RE; contradiction).
    all: revert UE; cbn [upd s_files]; rewrite ?Nat.eqb_refl; cbn [f_status with_mtime with_updated with_state]; destruct (f_status (s_files st f)); cbn [us_rank Nat.eqb]; intros UE; try discriminate; intros _; reflexivity.
  Qed.
End Notice.
