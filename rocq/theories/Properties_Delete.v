(** C61: targets of recipes that fail or are interrupted. *)
From Verif Require Import Base M_Delete S_Delete P_Delete.
Open Scope string_scope.
Open Scope list_scope.
Open Scope nat_scope.

Definition start (disk0 : str -> option node) : world := mkworld disk0 (fun _ => unknown_mtime) [] None false [] [].

(** A file that make looked at and that nothing changed since is still there, whatever else happens. *)
Theorem C61_unchanged_kept :
  forall precious phony member on_error w1 f l2 w2, last w1 f = unknown_mtime ->
  steps precious phony member on_error w1 (Look f :: l2) = Some w2 -> Forall (fun e => ~ changes f e) l2 ->
  disk w2 f = disk w1 f /\ exists x, log w2 = log w1 ++ x /\ ~ In f x.
Proof.
  intros precious phony member on_error w1 f l2 w2 U H N. cbn [M_Delete.steps M_Delete.step] in H. rewrite U in H. cbn [Nat.eqb unknown_mtime] in H.
  set (w := mkworld _ _ _ _ _ _ _) in H. assert (I : forall n, disk w f = Some n -> n_time n = last w f) by (intros n E; unfold w in *; cbn [disk last] in *; rewrite upd_same, E; reflexivity).
  change (disk w1 f) with (disk w f). change (log w1) with (log w). clearbody w. clear U w1. revert w I H.
  induction N as [|e l2 NE N IH]; intros w I H; cbn [M_Delete.steps] in H; [injection H as <-; split; [reflexivity|exists []; rewrite app_nil_r; split; [reflexivity|intros []]]|].
  destruct (M_Delete.step precious phony member on_error w e) as [w'|] eqn:E; [|discriminate]. apply step_effect in E. destruct E as (x & X1 & X2 & X3 & X4 & X5 & _).
  assert (NX : ~ In f x) by (intros J; destruct (X2 f J) as (k & d & _ & _ & _ & _ & D & _ & T); apply T, I, D).
  assert (DD : disk w' f = disk w f) by (apply X4; assumption).
  destruct (IH w') as (A & y & B & C).
  - intros n D. rewrite DD in D. destruct (X5 f) as [L|(_ & _ & L)]; [rewrite L; apply I; exact D|rewrite L, D; reflexivity].
  - exact H.
  - rewrite A, DD. split; [reflexivity|]. exists (x ++ y). rewrite B, X1, <- app_assoc. split; [reflexivity|]. intros J. apply in_app_or in J. destruct J as [J|J]; [exact (NX J)|exact (C J)].
Qed.
Print Assumptions C61_unchanged_kept.

(** Precious and phony targets and members of archives are never deleted. *)
Theorem C61_protected_kept :
  forall precious phony member on_error f, precious f = true \/ phony f = true \/ member f = true ->
  forall l w w', steps precious phony member on_error w l = Some w' -> Forall (fun e => ~ changes f e) l -> disk w' f = disk w f.
Proof.
  intros precious phony member on_error f PF. assert (P1 : protected precious phony member f = true) by (unfold protected; destruct PF as [-> |[-> | ->]]; rewrite ?orb_true_r; reflexivity).
  induction l as [|e l IH]; intros w w' H N; cbn [M_Delete.steps] in H; [injection H as <-; reflexivity|]. inversion N as [|? ? N1 N2]; subst.
  destruct (M_Delete.step precious phony member on_error w e) as [w1|] eqn:E; [|discriminate]. rewrite (IH w1 w' H N2). apply step_effect in E. destruct E as (x & _ & X2 & _ & X4 & _).
  apply X4; [|exact N1]. intros J. destruct (X2 f J) as (k & d & _ & _ & _ & Z & _). congruence.
Qed.
Print Assumptions C61_protected_kept.

(** What make deletes is a target of a recipe it started and that failed, was interrupted or could not go on. *)
Theorem C61_only_failed :
  forall precious phony member on_error d0 l w, steps precious phony member on_error (start d0) l = Some w ->
  forall f, In f (log w) -> exists c l1 e1 l2 e2 l3, l = l1 ++ e1 :: l2 ++ e2 :: l3 /\ starts c f e1 /\ fails c e2.
Proof.
  intros precious phony member on_error d0 l. 
  assert (G : forall w, steps precious phony member on_error (start d0) l = Some w ->
    (forall f, In f (log w) -> exists c l1 e1 l2 e2 l3, l = l1 ++ e1 :: l2 ++ e2 :: l3 /\ starts c f e1 /\ fails c e2) /\
    (forall k, In k (kids w) -> exists l1 pid l2, l = l1 ++ Start (k_file k) (k_also k) pid :: l2)).
  { induction l as [|e l IH] using rev_ind; intros w H.
    - injection H as <-. split; [intros f []|intros k []].
    - rewrite steps_app in H. destruct (M_Delete.steps precious phony member on_error (start d0) l) as [w0|] eqn:E0; [|discriminate]. destruct (IH w0 eq_refl) as [I1 I2]. cbn [M_Delete.steps] in H.
      destruct (M_Delete.step precious phony member on_error w0 e) as [w1|] eqn:E; [|discriminate]. injection H as <-. apply step_effect in E. destruct E as (x & X1 & X2 & _ & _ & _ & X6 & _). split.
      + intros f J. rewrite X1 in J. apply in_app_or in J. destruct J as [J|J].
        * destruct (I1 f J) as (c & l1 & e1 & l2 & e2 & l3 & -> & A & B). exists c, l1, e1, l2, e2, (l3 ++ [e]). split; [|split; assumption]. rewrite <- !app_assoc. cbn [app]. rewrite <- app_assoc. reflexivity.
        * destruct (X2 f J) as (k & d & K & T & F & _). destruct (I2 k K) as (l1 & pid & l2 & ->). exists (k_file k), l1, (Start (k_file k) (k_also k) pid), l2, e, []. split; [rewrite <- app_assoc; reflexivity|]. split; [|exact F].
          exists (k_also k), pid. split; [reflexivity|]. destruct T as [T|T]; [left; symmetry; exact T|right; exact T].
      + intros k' K. destruct (X6 k' K) as [(k & J & S1 & S2)|(f & also & pid & -> & ->)].
        * destruct (I2 k J) as (l1 & pid & l2 & ->). rewrite S1, S2. exists l1, pid, (l2 ++ [e]). rewrite <- app_assoc. reflexivity.
        * exists l, pid, []. reflexivity. }
  intros w H f J. exact (proj1 (G w H) f J).
Qed.
Print Assumptions C61_only_failed.

(** A signal from the user: of every running recipe's targets nothing is left that it made. *)
Theorem C61_interrupted :
  forall precious phony member on_error w w', step precious phony member on_error w (Fatal true) = Some w' ->
  forall k f, In k (kids w) -> k_pid k = true -> k_deleted k = false -> f = k_file k \/ In f (k_also k) ->
  precious f = false -> phony f = false -> member f = false -> clean (last w f) (disk w' f).
Proof.
  intros precious phony member on_error w w' H k f K A B T P1 P2 P3. cbn [M_Delete.step] in H. set (w1 := mkworld _ _ _ _ true _ _) in H.
  destruct (delete_all precious phony member w1 (kids w1)) as [w2 l] eqn:Q. injection H as <-. destruct (deletes_all precious phony member (kids w1) w1) as [D _]. rewrite Q in D. cbn [fst] in D.
  destruct D as (_ & _ & _ & _ & _ & x & _ & _ & _ & _ & D). apply (D f).
  - apply in_flat_map. exists k. split; [exact K|]. unfold live. rewrite A, B. destruct T as [-> |T]; [left; reflexivity|right; exact T].
  - unfold protected. rewrite P1, P2, P3. reflexivity.
Qed.
Print Assumptions C61_interrupted.

(** A recipe that fails: the same, if a signal killed it or .DELETE_ON_ERROR is a target; otherwise nothing is deleted. *)
Lemma doe_const precious phony member on_error d0 l : forall w, steps precious phony member on_error (start d0) l = Some w -> doe w = None \/ doe w = Some on_error.
Proof.
  induction l as [|e l IH] using rev_ind; intros w H; [injection H as <-; left; reflexivity|]. rewrite steps_app in H. destruct (M_Delete.steps precious phony member on_error (start d0) l) as [w0|] eqn:E0; [|discriminate].
  cbn [M_Delete.steps] in H. destruct (M_Delete.step precious phony member on_error w0 e) as [w1|] eqn:E; [|discriminate]. injection H as <-. apply step_effect in E. destruct E as (x & _ & _ & _ & _ & _ & _ & X7).
  destruct (IH w0 eq_refl) as [Z|Z]; rewrite Z in X7; destruct X7 as [X7|X7]; rewrite X7; [left|right|right|right]; reflexivity.
Qed.
Theorem C61_failed :
  forall precious phony member on_error d0 l w, steps precious phony member on_error (start d0) l = Some w ->
  forall c sig w', step precious phony member on_error w (Reap c (Failed sig)) = Some w' ->
  In (c, false) (done w') /\
  exists k, In k (kids w) /\ k_file k = c /\
    if sig || on_error then
      k_pid k = true -> k_deleted k = false -> forall f, f = c \/ In f (k_also k) -> precious f = false -> phony f = false -> member f = false -> clean (last w f) (disk w' f)
    else disk w' = disk w.
Proof.
  intros precious phony member on_error d0 l w R c sig w' H. cbn [M_Delete.step] in H. destruct (take c (kids w)) as [[[a k] b]|] eqn:T; [|discriminate]. injection H as <-. apply take_spec in T. destruct T as [T F]. subst c.
  assert (DOE : match doe w with Some b => b | None => on_error end = on_error) by (destruct (doe_const _ _ _ _ _ _ _ R) as [-> | ->]; reflexivity).
  cbn [M_Delete.reap set_doe finish doe]. rewrite DOE. set (w1 := mkworld _ _ _ _ _ _ _). pose proof (deletes_child precious phony member w1 k) as D. destruct D as (_ & _ & _ & _ & DN & x & _ & _ & _ & _ & D).
  split.
  - cbn [set_kids done]. destruct (sig || on_error); [rewrite DN|]; apply in_or_app; right; left; reflexivity.
  - exists k. split; [rewrite T; apply in_or_app; right; left; reflexivity|]. split; [reflexivity|]. destruct (sig || on_error); [|reflexivity].
    intros A B f TT P1 P2 P3. apply (D f).
    + unfold live. rewrite A, B. destruct TT as [-> |TT]; [left; reflexivity|right; exact TT].
    + unfold protected. rewrite P1, P2, P3. reflexivity.
Qed.
Print Assumptions C61_failed.

(** A recipe that came to its end: nothing is deleted, and the target is made.  After a fatal signal no recipe goes on, and what is not finished has failed. *)
Theorem C61_finished :
  forall precious phony member on_error w c w', step precious phony member on_error w (Reap c Last) = Some w' -> disk w' = disk w /\ log w' = log w /\ done w' = done w ++ [(c, true)].
Proof.
  intros precious phony member on_error w c w' H. cbn [M_Delete.step] in H. destruct (take c (kids w)) as [[[a k] b]|] eqn:T; [|discriminate]. injection H as <-. apply take_spec in T. destruct T as [_ <-]. repeat split.
Qed.
Print Assumptions C61_finished.
Theorem C61_dying :
  forall precious phony member on_error w, dying w = true ->
  (forall f also pid, step precious phony member on_error w (Start f also pid) = None) /\
  (forall c s w', step precious phony member on_error w (Reap c (Next s)) = Some w' -> done w' = done w ++ [(c, false)] /\ length (kids w') < length (kids w)) /\
  (forall e w', step precious phony member on_error w e = Some w' -> dying w' = true).
Proof.
  intros precious phony member on_error w D. split; [|split].
  - intros f also pid. cbn [M_Delete.step]. rewrite D. reflexivity.
  - intros c s w' H. cbn [M_Delete.step] in H. destruct (take c (kids w)) as [[[a k] b]|] eqn:T; [|discriminate]. injection H as <-. apply take_spec in T. destruct T as [T <-]. cbn [M_Delete.reap]. rewrite D.
    pose proof (deletes_child precious phony member (finish w (k_file k) false) k) as X. destruct X as (_ & _ & _ & _ & X & _). cbn [set_kids done kids]. rewrite X. split; [reflexivity|]. rewrite T, !app_length. cbn [length]. lia.
  - intros e w' H. destruct e as [f|f also pid|f d|f en|user]; cbn [M_Delete.step] in H.
    + destruct (last w f =? unknown_mtime); injection H as <-; exact D.
    + rewrite D in H. discriminate.
    + destruct d as [n|]; [destruct (n_time n <? 3); [discriminate|]|]; injection H as <-; exact D.
    + destruct (take f (kids w)) as [[[a k] b]|]; [|discriminate]. injection H as <-.
      assert (X : forall v, dying v = true -> dying (set_kids (fst (delete_child_targets precious phony member v k)) (a ++ b)) = true).
      { intros v V. pose proof (deletes_child precious phony member v k) as X. destruct X as (_ & _ & _ & X & _). cbn [set_kids dying]. rewrite X. exact V. }
      destruct en as [sg| |s]; cbn [M_Delete.reap].
      * cbn [set_doe]. destruct (sg || _); [apply X|]; exact D.
      * exact D.
      * rewrite D. apply X. exact D.
    + destruct user; [|injection H as <-; reflexivity]. set (w1 := mkworld _ _ _ _ true _ _) in H. destruct (delete_all precious phony member w1 (kids w1)) as [w2 l] eqn:Q. injection H as <-.
      destruct (deletes_all precious phony member (kids w1) w1) as [X _]. rewrite Q in X. destruct X as (_ & _ & _ & X & _). cbn [set_kids dying fst] in *. rewrite X. reflexivity.
Qed.
Print Assumptions C61_dying.

(** ** Concrete cases *)
Definition no (_ : str) : bool := false.
Definition is (n : string) (f : str) : bool := str_eqb f n.
Definition files (l : list (string * nat)) (f : str) : option node :=
  match filter (fun x => is (fst x) f) l with x :: _ => Some (mknode true (snd x)) | [] => None end.
Definition N (t : nat) : option node := Some (mknode true t).
Definition left_of (o : option world) (f : string) : option (option nat) := option_map (fun w => option_map n_time (disk w (s2l f))) o.
(** Three targets: changed, unchanged, precious; the recipe of the first two is interrupted. *)
Definition ex : list event := [Look "a"; Look "b"; Look "p"; Start "a" [s2l "b"] true; Start "p" [] true; Change "a" (N 50); Change "p" (N 51); Fatal true; Reap "a" (Failed true); Reap "p" (Failed true)].
Example C61_ex :
  let w := steps (is "p") no no false (start (files [("a", 5); ("b", 6); ("p", 7)])) ex in
  left_of w "a" = Some None /\ left_of w "b" = Some (Some 6) /\ left_of w "p" = Some (Some 51) /\ option_map log w = Some [s2l "a"] /\ option_map done w = Some [(s2l "a", false); (s2l "p", false)].
Proof. vm_compute. repeat split. Qed.
Example C61_failed_ex :
  let l := [Look "a"; Start "a" [] true; Change "a" (N 50); Reap "a" (Next Runs); Reap "a" (Failed false)] in
  left_of (steps no no no true (start (files [])) l) "a" = Some None /\ left_of (steps no no no false (start (files [])) l) "a" = Some (Some 50) /\
  left_of (steps no no no false (start (files [])) [Look "a"; Start "a" [] true; Change "a" (N 50); Reap "a" Last]) "a" = Some (Some 50) /\
  left_of (steps no no no false (start (files [])) [Look "a"; Start "a" [] true; Change "a" (N 50); Fatal false; Reap "a" (Next Runs)]) "a" = Some None.
Proof. vm_compute. repeat split. Qed.

(** ** Where the code differs *)
(** .DELETE_ON_ERROR is given, the first command of a recipe makes half a target, the second is not found: the target stays. *)
Theorem C61_not_found_refuted :
  exists l w k, steps no no no true (start (files [])) l = Some w /\ In k (kids w) /\ k_deleted k = false /\
  exists w', step no no no true w (Reap (k_file k) (Failed false)) = Some w' /\ ~ clean (last w (k_file k)) (disk w' (k_file k)).
Proof.
  exists [Look "a"; Start "a" [] true; Change "a" (N 50); Reap "a" (Next Not_found)]. eexists. eexists. split; [reflexivity|]. split; [left; reflexivity|]. split; [reflexivity|]. eexists. split; [reflexivity|].
  intros C. specialize (C (mknode true 50) eq_refl eq_refl). vm_compute in C. discriminate.
Qed.
Print Assumptions C61_not_found_refuted.
(** A target of the same recipe that make had no occasion to look at is deleted though nothing changed it. *)
Theorem C61_unseen_refuted :
  exists d0 l w f, steps no no no true (start d0) l = Some w /\ Forall (fun e => ~ changes f e) l /\ d0 f <> None /\ disk w f = None /\ In f (log w).
Proof.
  exists (files [("b", 6)]), [Look "a"; Start "a" [s2l "b"] true; Reap "a" (Failed false)]. eexists. exists (s2l "b"). split; [reflexivity|].
  split; [repeat constructor; intros (d & E); discriminate|]. split; [vm_compute; discriminate|]. split; [vm_compute; reflexivity|left; reflexivity].
Qed.
Print Assumptions C61_unseen_refuted.
(** A recipe that goes on after the signal and writes its target again leaves it behind, although make waits for it and sees it fail. *)
Theorem C61_late_refuted :
  exists l w w', steps no no no true (start (files [])) l = Some w /\ dying w = true /\ kids w <> [] /\ step no no no true w (Reap "a" (Failed true)) = Some w' /\ kids w' = [] /\ ~ clean (last w "a") (disk w' "a").
Proof.
  exists [Look "a"; Start "a" [] true; Change "a" (N 50); Fatal true; Change "a" (N 51)]. eexists. eexists. split; [reflexivity|]. split; [reflexivity|]. split; [discriminate|]. split; [reflexivity|]. split; [reflexivity|].
  intros C. specialize (C (mknode true 51) eq_refl eq_refl). vm_compute in C. discriminate.
Qed.
Print Assumptions C61_late_refuted.
