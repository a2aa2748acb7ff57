(** Proofs about the time of a file. *)
From Coq Require Import Lia List.
From Verif Require Import Base M_Rename S_Rename P_Rename M_Mtime S_Mtime.
Open Scope list_scope.
Open Scope nat_scope.

(** What storing does to one file. *)
Definition st (ns : nat -> bool) (m : nat) (p : bool) (e : nat) (f : file) : file :=
  let f := if negb (m =? NONEXISTENT) && ns e && negb (w_tried (f_flags f)) && w_intermediate (f_others f) then not_intermediate f else f in
  if Bool.eqb (updated f) p then with_mtime f m else f.
Lemma store_st ns m p h e : store ns m p h e = put h e (st ns m p e (h e)).
Proof. reflexivity. Qed.
Lemma st_idem ns m p e f : st ns m p e (st ns m p e f) = st ns m p e f.
Proof.
  assert (A : forall g, with_mtime (with_mtime g m) m = with_mtime g m) by reflexivity.
  assert (B : forall g, w_tried (f_flags (with_mtime g m)) = w_tried (f_flags g) /\ w_intermediate (f_others (with_mtime g m)) = w_intermediate (f_others g) /\ updated (with_mtime g m) = updated g) by (intros g; split; [reflexivity|]; split; reflexivity).
  assert (C : w_tried (f_flags (not_intermediate f)) = w_tried (f_flags f) /\ w_intermediate (f_others (not_intermediate f)) = false /\ updated (not_intermediate f) = updated f) by (split; [reflexivity|]; split; reflexivity).
  destruct C as (C1 & C2 & C3). unfold st. cbv zeta. destruct (negb (m =? NONEXISTENT) && ns e && negb (w_tried (f_flags f)) && w_intermediate (f_others f)) eqn:X.
  - destruct (Bool.eqb (updated (not_intermediate f)) p) eqn:U.
    + destruct (B (not_intermediate f)) as (-> & -> & BU). rewrite C2, andb_false_r, BU, U. apply A.
    + rewrite C2, andb_false_r, U. reflexivity.
  - destruct (Bool.eqb (updated f) p) eqn:U.
    + destruct (B f) as (-> & -> & BU). rewrite X, BU, U. apply A.
    + rewrite X, U. reflexivity.
Qed.
Lemma fold_store ns m p e : forall es h, fold_left (store ns m p) es h e = if in_dec Nat.eq_dec e es then st ns m p e (h e) else h e.
Proof.
  induction es as [| a es IH]; intros h; [reflexivity|]. cbn [fold_left]. rewrite IH, store_st. destruct (Nat.eq_dec e a) as [->|N].
  - rewrite put_same. destruct (in_dec Nat.eq_dec a es), (in_dec Nat.eq_dec a (a :: es)) as [|X]; try (exfalso; apply X; left; reflexivity); [apply st_idem|reflexivity].
  - rewrite put_other by exact N. destruct (in_dec Nat.eq_dec e es) as [I|I], (in_dec Nat.eq_dec e (a :: es)) as [J|J]; try reflexivity; exfalso; [apply J; right; exact I|destruct J; [congruence|auto]].
Qed.
Lemma finish_recorded ns n s i m s' m' : finish ns n s i m = Time s' m' -> m' = m /\ table s' = table s /\ recorded ns (heap s) (heap s') (head_of (heap s) i) m.
Proof.
  unfold finish. fold (head_of (heap s) i). set (hd := head_of (heap s) i). destruct (entries n (heap s) (Some hd)) as [es|] eqn:E; [|discriminate]. intros H. injection H as <- <-. split; [reflexivity|]. split; [reflexivity|].
  intros e. cbn [heap]. rewrite fold_store. pose proof (entries_later _ _ _ _ e E) as L.
  assert (IN : In e es <-> later (heap s) hd e) by (rewrite L; split; [intros (d & D & X); injection D as <-; exact X|eauto]). clear L.
  destruct (in_dec Nat.eq_dec e es) as [I|I]; (split; [intros N|intros N]); try (exfalso; tauto); try reflexivity. clear IN N I.
  unfold st, updated. destruct (heap s e) as [a b c d v co pr re t be bu fl [tr im se dc su]]. cbn [f_flags f_others w_intermediate].
  assert (G : forall x : bool, x = negb (m =? NONEXISTENT) && ns e && negb (w_tried fl) -> (x = true <-> m <> NONEXISTENT /\ ns e = true /\ w_tried fl = false)).
  { intros x ->. rewrite !andb_true_iff, !negb_true_iff, Nat.eqb_neq. tauto. }
  specialize (G _ eq_refl). destruct (negb (m =? NONEXISTENT) && ns e && negb (w_tried fl)); destruct im; cbn [andb not_intermediate f_flags f_others w_intermediate with_mtime];
  destruct (Bool.eqb (w_updated fl) _); cbn [not_intermediate f_flags f_others w_intermediate with_mtime f_mtime]; (split; [repeat split|split; [reflexivity|]]); split; intros; try discriminate; intuition congruence.
Qed.
(** Noting the time changes nothing else. *)
Lemma noted_sound s i t : sound s -> sound (mkstate (put (heap s) i (with_mtime (heap s i) t)) (table s)).
Proof.
  intros [S1 S2]. assert (A : forall x, f_hname (put (heap s) i (with_mtime (heap s i) t) x) = f_hname (heap s x) /\ f_renamed (put (heap s) i (with_mtime (heap s i) t) x) = f_renamed (heap s x) /\ f_colon (put (heap s) i (with_mtime (heap s i) t) x) = f_colon (heap s x) /\ f_prev (heap s x) = f_prev (put (heap s) i (with_mtime (heap s i) t) x)).
  { intros x. destruct (Nat.eq_dec x i) as [->|N]; [rewrite put_same|rewrite put_other by exact N]; auto. }
  split; cbn [heap table].
  - intros n x T. destruct (A x) as (-> & -> & _). auto.
  - intros n x d e T C L. destruct (A x) as (_ & _ & X & _). rewrite X in C. apply (S2 n x d e T C). revert L. apply later_ext. intros y. apply A.
Qed.
Lemma finish_alike ns n s i m s' m' : finish ns n s i m = Time s' m' -> forall e, alike (heap s' e) (heap s e).
Proof.
  intros H. unfold finish in H. destruct (entries _ _ _) as [es|]; [|discriminate]. injection H as <- _. intros e. cbn [heap]. rewrite fold_store. destruct (in_dec Nat.eq_dec e es); [|repeat split; reflexivity].
  unfold st. destruct (_ && _); destruct (Bool.eqb _ _); repeat split; reflexivity.
Qed.
Lemma sound_same s s' : table s' = table s -> (forall x, f_hname (heap s' x) = f_hname (heap s x) /\ f_renamed (heap s' x) = f_renamed (heap s x) /\ f_colon (heap s' x) = f_colon (heap s x) /\ f_prev (heap s x) = f_prev (heap s' x)) -> sound s -> sound s'.
Proof.
  intros TT A [S1 S2]. split; rewrite TT.
  - intros n x T. destruct (A x) as (-> & -> & _). auto.
  - intros n x d e T C L. destruct (A x) as (_ & _ & X & _). rewrite X in C. apply (S2 n x d e T C). revert L. apply later_ext. intros y. apply A.
Qed.
Lemma resolves_same h h' x y : (forall z, f_renamed (h' z) = f_renamed (h z)) -> resolves h x y -> resolves h' x y.
Proof. intros E. induction 1 as [x R | x y z R _ IH]; [apply rs_here; rewrite E; exact R|eapply rs_next; [rewrite E; exact R|exact IH]]. Qed.
Lemma rename_keeps n s i to s' w : rename_file n s i to = Done s' w -> exists s1, rehash_file n s i to = Done s1 w /\ table s' = table s1 /\ f_name (heap s' i) = f_hname (heap s1 i) /\
  forall e, f_hname (heap s' e) = f_hname (heap s1 e) /\ f_renamed (heap s' e) = f_renamed (heap s1 e) /\ f_colon (heap s' e) = f_colon (heap s1 e) /\ f_prev (heap s1 e) = f_prev (heap s' e) /\ f_mtime (heap s' e) = f_mtime (heap s1 e).
Proof.
  intros H. unfold rename_file in H. destruct (rehash_file n s i to) as [s1 w1| | |]; try discriminate. destruct (entries n (heap s1) (Some i)) as [es|] eqn:E; [|discriminate]. injection H as <- <-. exists s1. cbn [heap table].
  split; [reflexivity|]. split; [reflexivity|]. set (F := fun (h : nat -> file) e => put h e (with_name (h e) (f_hname (h e)))).
  assert (A : forall l h e, f_hname (fold_left F l h e) = f_hname (h e) /\ f_renamed (fold_left F l h e) = f_renamed (h e) /\ f_colon (fold_left F l h e) = f_colon (h e) /\ f_prev (h e) = f_prev (fold_left F l h e) /\ f_mtime (fold_left F l h e) = f_mtime (h e)).
  { induction l as [| b l IHl]; intros h e; [auto 6|]. cbn [fold_left]. destruct (IHl (F h b) e) as (-> & -> & -> & <- & ->). unfold F. destruct (Nat.eq_dec e b) as [->|N]; [rewrite put_same|rewrite put_other by exact N]; auto 6. }
  split; [|intros e; apply A]. assert (I : In i es) by (apply (entries_later _ _ _ _ i E); exists i; split; [reflexivity|apply lt_here]).
  assert (B : forall l h, (In i l \/ f_name (h i) = f_hname (h i)) -> f_name (fold_left F l h i) = f_hname (h i)).
  { induction l as [| b l IHl]; intros h J; [destruct J as [[]|J]; exact J|]. cbn [fold_left]. assert (FH : f_hname (F h b i) = f_hname (h i)) by (unfold F; destruct (Nat.eq_dec i b) as [->|N]; [rewrite put_same|rewrite put_other by exact N]; reflexivity).
    rewrite IHl; [exact FH|]. destruct (Nat.eq_dec i b) as [->|N]; [right; unfold F; rewrite put_same; reflexivity|]. destruct J as [[J|J]|J]; [congruence|left; exact J|right; unfold F; rewrite put_other by exact N; exact J]. }
  apply B. left. exact I.
Qed.
