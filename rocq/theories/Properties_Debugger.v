(** The debugger: breakpoints (C34), frame motion (C35), command words (C36),
    line numbers (C37), command lookup (C46), stepping (C47). *)
From Verif Require Import Base.
From Verif Require Import M_Debugger S_Debugger P_Debugger P_Debugger2 P_Debugger3.
From Coq Require Import Sorting.Sorted.
Open Scope string_scope.
Open Scope list_scope.
Open Scope nat_scope.

(** * C34 *)

(** Whatever the history, the breakpoint list never follows a dangling
    pointer, and what `info break' prints is exactly the breakpoints set and
    not deleted, in the order of their numbers. *)
Theorem C34_list : forall oe ops,
  exists s l, drun oe dinit ops = Some s /\ list_breakpoints s = Some l
    /\ (forall i t m, In (i, t, m) l <-> is_listed ops i t m)
    /\ StronglySorted lt (map (fun e => fst (fst e)) l).
Proof.
  intros oe ops. destruct (run_rel oe ops) as (s & Hr & L & I & El & _).
  exists s, (map snd L). split; [exact Hr|]. split; [|split].
  - unfold list_breakpoints. apply list_bp_spec; [apply (i_seg _ _ I)|apply (i_len _ _ I)].
  - intros i t m. rewrite El. apply (ai_list _ _ (ainv_run oe ops)).
  - rewrite map_map. exact (i_sort _ _ I).
Qed.
Print Assumptions C34_list.

Example C34_list_ex :
  exists s, drun false dinit [OpBreak 5 7%N; OpBreak 6 2%N; OpBreak 7 4%N; OpDelete 2] = Some s
    /\ list_breakpoints s = Some [(1, 5, 7%N); (3, 7, 4%N)].
Proof. eexists. split; [vm_compute; reflexivity|]. vm_compute. reflexivity. Qed.

(** A new breakpoint gets a number no earlier breakpoint of the session had,
    deleted or not. *)
Theorem C34_numbers_never_reused : forall oe ops t m s s',
  drun oe dinit ops = Some s -> add_breakpoint s t m = Some s' ->
  (forall a b t0 m0, ops = a ++ OpBreak t0 m0 :: b ->
     exists sa sb, drun oe dinit a = Some sa /\ add_breakpoint sa t0 m0 = Some sb
       /\ h_count sb < h_count s')
  /\ (exists l, list_breakpoints s' = Some (l ++ [(h_count s', t, m)])).
Proof.
  intros oe ops t m s s' Hs Ha.
  assert (C : forall o s0, drun oe dinit o = Some s0 -> h_count s0 = breaks o).
  { intros o s0 H. destruct (run_rel oe o) as (s1 & Hr & L & I & _ & Ec & _).
    rewrite H in Hr. injection Hr as <-. rewrite Ec. apply (ai_count _ _ (ainv_run oe o)). }
  assert (A : forall o s0 tt mm, drun oe dinit o = Some s0 ->
     exists s1, add_breakpoint s0 tt mm = Some s1 /\ h_count s1 = S (breaks o)).
  { intros o s0 tt mm H. destruct (run_rel oe o) as (s1 & Hr & L & I & _ & Ec & _).
    pose proof H as H'. rewrite H in Hr. injection Hr as <-.
    destruct (add_inv s0 L tt mm I) as (s2 & Ha2 & _ & Hc & _). exists s2. split; [exact Ha2|].
    rewrite Hc, (C _ _ H'). reflexivity. }
  split.
  - intros a b t0 m0 E. destruct (run_rel oe a) as (sa & Hra & _).
    destruct (A a sa t0 m0 Hra) as (sb & Hab & Hcb). exists sa, sb. split; [exact Hra|]. split; [exact Hab|].
    destruct (A ops s t m Hs) as (s2 & Ha2 & Hc2). rewrite Ha in Ha2. injection Ha2 as <-.
    rewrite Hcb, Hc2, E, breaks_app. cbn. lia.
  - destruct (run_rel oe ops) as (s1 & Hr & L & I & _). rewrite Hs in Hr. injection Hr as <-.
    destruct (add_inv s L t m I) as (s2 & Ha2 & I2 & Hc & _). rewrite Ha in Ha2. injection Ha2 as <-.
    exists (map snd L). unfold list_breakpoints. rewrite (list_bp_spec _ _ _ _ (i_seg _ _ I2) (i_len _ _ I2)).
    rewrite map_app, Hc. reflexivity.
Qed.
Print Assumptions C34_numbers_never_reused.

Example C34_numbers_ex :
  exists s, drun false dinit [OpBreak 5 7%N; OpDeleteAll] = Some s
    /\ exists s', add_breakpoint s 5 1%N = Some s' /\ list_breakpoints s' = Some [(2, 5, 1%N)].
Proof. eexists. split; [vm_compute; reflexivity|]. eexists. split; vm_compute; reflexivity. Qed.

(** Without `finish' and while not stepping, execution stops at a point of a
    target only if a listed breakpoint on that target asks for that point --
    for every history, with temporary breakpoints and any number of
    breakpoints on one target. *)
Theorem C34_stops_only_for_listed : forall oe ops s t cmds r b,
  no_finish ops -> no_step ops -> drun oe dinit ops = Some s -> bit_of r = Some b ->
  fst (visit oe s t cmds r) = true -> wants ops t b.
Proof.
  intros oe ops s t cmds r b NF NS Hs Hb Hv.
  destruct (run_rel oe ops) as (s1 & Hr & L & I & El & Ec & Et & Est & En).
  rewrite Hs in Hr. injection Hr as <-.
  destruct (no_step_run oe ops NS) as [N1 N2].
  apply visit_stops in Hv; [|congruence|congruence].
  rewrite Et in Hv. apply (land_bit _ r b Hb) in Hv.
  destruct (latest_run oe ops NF t) as [H0|(i & Hi & _)]; [rewrite H0, N.bits_0 in Hv; discriminate|].
  apply (ai_list _ _ (ainv_run oe ops)) in Hi. exists i, (a_tr (a_run oe a_init ops) t). auto.
Qed.
Print Assumptions C34_stops_only_for_listed.

(** While no target gets a second breakpoint and none is temporary, execution
    stops exactly at the points the listed breakpoints ask for. *)
Theorem C34_stops_exactly : forall oe ops s t cmds r b,
  no_finish ops -> no_step ops -> no_temp ops -> one_per_target ops ->
  drun oe dinit ops = Some s -> bit_of r = Some b ->
  (fst (visit oe s t cmds r) = true <-> wants ops t b).
Proof.
  intros oe ops s t cmds r b NF NS NT OP Hs Hb. split; [eapply C34_stops_only_for_listed; eassumption|].
  intros (i & m & Hi & Hm).
  destruct (run_rel oe ops) as (s1 & Hr & L & I & El & Ec & Et & Est & En).
  rewrite Hs in Hr. injection Hr as <-.
  destruct (no_step_run oe ops NS) as [N1 N2].
  apply visit_stops; [congruence|congruence|].
  apply (land_bit _ r b Hb). rewrite Et.
  destruct (in_force_run oe ops NF NT OP) as [F _].
  apply (ai_list _ _ (ainv_run oe ops)) in Hi. rewrite (F _ _ _ Hi). exact Hm.
Qed.
Print Assumptions C34_stops_exactly.

(** A listed breakpoint also stops execution in the middle of `step N'. *)
Theorem C34_stops_while_stepping : forall oe ops s t cmds r b,
  no_finish ops -> no_temp ops -> one_per_target ops ->
  drun oe dinit ops = Some s -> bit_of r = Some b ->
  wants ops t b -> fst (visit oe s t cmds r) = true.
Proof.
  intros oe ops s t cmds r b NF NT OP Hs Hb (i & m & Hi & Hm).
  destruct (run_rel oe ops) as (s1 & Hr & L & I & El & Ec & Et & Est & En).
  rewrite Hs in Hr. injection Hr as <-.
  apply visit_stops_armed. apply (land_bit _ r b Hb). rewrite Et.
  destruct (in_force_run oe ops NF NT OP) as [F _].
  apply (ai_list _ _ (ainv_run oe ops)) in Hi. rewrite (F _ _ _ Hi). exact Hm.
Qed.
Print Assumptions C34_stops_while_stepping.

Example C34_stops_while_stepping_ex :
  exists s, drun false dinit [OpBreak 5 2%N; OpStep 9] = Some s
    /\ fst (visit false s 5 true R_after_prereq) = true
    /\ fst (visit false s 6 true R_after_prereq) = false.
Proof. eexists. split; [vm_compute; reflexivity|]. split; vm_compute; reflexivity. Qed.

(** A history that meets the hypotheses, with a delete, a visit and a target
    that gets a breakpoint again after the first was deleted. *)
Example C34_stops_exactly_ex :
  let ops := [OpBreak 5 2%N; OpBreak 6 7%N; OpVisit 5 true R_after_prereq; OpDelete 1; OpBreak 5 4%N] in
  no_finish ops /\ no_step ops /\ no_temp ops /\ one_per_target ops
  /\ exists s, drun false dinit ops = Some s
     /\ fst (visit false s 5 true R_after_cmd) = true
     /\ fst (visit false s 5 true R_after_prereq) = false.
Proof.
  cbn zeta. split; [|split; [|split; [|split]]].
  - intros t H. cbn in H. intuition discriminate.
  - intros t H. cbn in H. intuition discriminate.
  - intros t m H. cbn in H.
    repeat (destruct H as [H|H]; [inversion H; subst; reflexivity|]). destruct H.
  - intros a b t m E i m' (a' & b' & Ea & Ei & Hd).
    destruct a as [|o1 a]; cbn in E; [destruct a'; discriminate|]. injection E as <- E.
    destruct a as [|o2 a]; cbn in E.
    { injection E as <- <- _. destruct a' as [|x a']; cbn in Ea; [discriminate|].
      destruct a'; discriminate. }
    injection E as <- E. destruct a as [|o3 a]; cbn in E; [discriminate|]. injection E as <- E.
    destruct a as [|o4 a]; cbn in E; [discriminate|]. injection E as <- E.
    destruct a as [|o5 a]; cbn in E.
    { injection E as <- <- _.
      destruct a' as [|x a']; cbn in Ea.
      - inversion Ea; subst. apply Hd. left. cbn. auto.
      - injection Ea as <- Ea. destruct a' as [|y a']; cbn in Ea; [discriminate|]. injection Ea as <- Ea.
        destruct a' as [|z a']; cbn in Ea; [discriminate|]. injection Ea as <- Ea.
        destruct a' as [|z' a']; cbn in Ea; [discriminate|]. injection Ea as <- Ea.
        destruct a'; discriminate. }
    injection E as <- E. destruct a; discriminate.
  - eexists. split; [vm_compute; reflexivity|]. split; vm_compute; reflexivity.
Qed.

(** The full claim is false: setting a second breakpoint on a target replaces
    the events of the first, although both are listed. *)
Theorem C34_second_breakpoint_refuted :
  exists ops s t, drun false dinit ops = Some s /\ no_finish ops /\ no_step ops /\ no_temp ops
    /\ wants ops t 1 /\ fst (visit false s t true R_after_prereq) = false.
Proof.
  exists [OpBreak 5 2%N; OpBreak 5 4%N]. eexists. exists 5.
  split; [vm_compute; reflexivity|].
  split; [intros t H; cbn in H; intuition discriminate|].
  split; [intros t H; cbn in H; intuition discriminate|].
  split.
  { intros t m H. cbn in H.
    repeat (destruct H as [H|H]; [inversion H; subst; reflexivity|]). destruct H. }
  split; [|vm_compute; reflexivity].
  exists 1, 2%N. split; [|reflexivity]. exists [], [OpBreak 5 4%N]. split; [reflexivity|]. split; [reflexivity|].
  intros [H|H]; cbn in H; intuition discriminate.
Qed.
Print Assumptions C34_second_breakpoint_refuted.

(** Deleting one of two breakpoints of a target disarms the other, which
    stays listed. *)
Theorem C34_delete_disarms_others_refuted :
  exists ops s t, drun false dinit ops = Some s /\ no_finish ops /\ no_temp ops
    /\ (exists i, list_breakpoints s = Some [(i, t, 4%N)]) /\ wants ops t 2
    /\ fst (visit false s t true R_after_cmd) = false.
Proof.
  exists [OpBreak 5 2%N; OpBreak 5 4%N; OpDelete 1]. eexists. exists 5.
  split; [vm_compute; reflexivity|].
  split; [intros t H; cbn in H; intuition discriminate|].
  split.
  { intros t m H. cbn in H.
    repeat (destruct H as [H|H]; [inversion H; subst; reflexivity|]). destruct H. }
  split; [exists 2; vm_compute; reflexivity|].
  split; [|vm_compute; reflexivity].
  exists 2, 4%N. split; [|reflexivity]. exists [OpBreak 5 2%N], [OpDelete 1]. split; [reflexivity|]. split; [reflexivity|].
  intros [H|H]; cbn in H; intuition discriminate.
Qed.
Print Assumptions C34_delete_disarms_others_refuted.

(** A temporary breakpoint (`continue TARGET') that was hit stays listed
    although it no longer stops anything, and deleting it reports failure. *)
Theorem C34_temporary_stays_listed_refuted :
  exists ops s t, drun false dinit ops = Some s /\ no_finish ops
    /\ list_breakpoints s = Some [(1, t, 15%N)]
    /\ fst (visit false s t true R_after_cmd) = false
    /\ exists s', remove_breakpoint s 1 = Some (false, s') /\ list_breakpoints s' = Some [].
Proof.
  exists [OpBreak 5 (continue_mask []); OpContinue; OpVisit 5 true R_before_prereq]. eexists. exists 5.
  split; [vm_compute; reflexivity|].
  split; [intros t H; cbn in H; intuition discriminate|].
  split; [vm_compute; reflexivity|]. split; [vm_compute; reflexivity|].
  eexists. split; vm_compute; reflexivity.
Qed.
Print Assumptions C34_temporary_stays_listed_refuted.

(** `finish' leaves a permanent stop behind: after it was hit once the target
    stops again, with no breakpoint listed. *)
Theorem C34_finish_stays_refuted :
  exists ops s t, drun false dinit ops = Some s /\ In (OpVisit t true R_after_cmd) ops
    /\ list_breakpoints s = Some []
    /\ fst (visit false s t true R_after_cmd) = true.
Proof.
  exists [OpFinish 5; OpVisit 5 true R_after_cmd; OpContinue]. eexists. exists 5.
  split; [vm_compute; reflexivity|]. split; [cbn; auto|]. split; vm_compute; reflexivity.
Qed.
Print Assumptions C34_finish_stays_refuted.

(** All modifiers of `break TARGET MODIFIER...' count ... *)
Theorem C34_break_modifiers : forall ms b, ms <> [] ->
  (N.testbit (break_mask ms) b = true <-> exists m, In m ms /\ N.testbit m b = true).
Proof.
  intros ms b Hne. unfold break_mask. destruct ms as [|m0 ms0]; [congruence|]. clear Hne.
  assert (G : forall l acc, N.testbit (fold_left N.lor l acc) b = true <->
     N.testbit acc b = true \/ exists m, In m l /\ N.testbit m b = true).
  { induction l as [|m l IH]; intros acc; cbn [fold_left].
    - split; [auto|]. intros [H|(m & [] & _)]. exact H.
    - rewrite IH, N.lor_spec, orb_true_iff. split.
      + intros [[H|H]|(m' & H & H')]; [auto|right; exists m; cbn; auto|right; exists m'; cbn; auto].
      + intros [H|(m' & [->|H] & H')]; [auto|auto|right; exists m'; auto]. }
  rewrite G. unfold BRK_NONE. rewrite N.bits_0. split; [intros [H|H]; [discriminate|exact H]|auto].
Qed.
Print Assumptions C34_break_modifiers.

Example C34_break_modifiers_ex :
  break_mask (map get_brkpt_option [s2l "run"; s2l "end"]) = 6%N
  /\ break_mask (map get_brkpt_option []) = 7%N.
Proof. vm_compute. auto. Qed.

(** ... but `continue TARGET MODIFIER...' only looks at the first. *)
Theorem C34_continue_modifiers_refuted :
  exists m1 m2, N.testbit m2 2 = true /\ N.testbit (continue_mask [m1; m2]) 2 = false.
Proof. exists 2%N, 4%N. vm_compute. auto. Qed.
Print Assumptions C34_continue_modifiers_refuted.

(** * C35 *)

(** Every series of motions, possible or not, leaves the position where the
    possible ones put it; the location reported is that frame's. *)
Theorem C35_position : forall targets flocs ms,
  (targets <> [] \/ flocs <> []) ->
  (fdepth targets flocs <= 1073741824)%Z -> Forall small_motion ms ->
  exists s, run_motions (frame_init targets flocs) ms = Some s
    /\ f_pos s = pos_after (fdepth targets flocs) ms
    /\ (0 <= f_pos s < fdepth targets flocs)%Z
    /\ (targets <> [] -> f_loc s = nth_error targets (Z.to_nat (f_pos s))).
Proof.
  intros tg fl ms Hne Hd Hs.
  destruct (run_motions_spec tg fl ms (frame_init tg fl) (finv_init tg fl Hne) Hd Hs) as (s & R & F & P).
  exists s. split; [exact R|]. split; [exact P|]. destruct (finv_depth _ _ _ F) as [Ed _].
  split; [rewrite <- Ed; apply (fi_pos _ _ _ F)|apply (fi_loc _ _ _ F)].
Qed.
Print Assumptions C35_position.

Example C35_position_ex :
  Forall small_motion [Up 2%Z; Up 9%Z; Down 1%Z; Frame (-1)%Z; Down 7%Z]
  /\ pos_after 4 [Up 2%Z; Up 9%Z; Down 1%Z; Frame (-1)%Z; Down 7%Z] = 3%Z
  /\ exists s, run_motions (frame_init [10; 11; 12; 13] []) [Up 2%Z; Up 9%Z; Down 1%Z; Frame (-1)%Z; Down 7%Z] = Some s
     /\ f_pos s = 3%Z /\ f_loc s = Some 13.
Proof.
  split; [repeat constructor|]. split; [reflexivity|].
  eexists. split; [vm_compute; reflexivity|]. vm_compute. auto.
Qed.

(** A possible motion makes the requested frame the current one, whatever
    happened before. *)
Theorem C35_moves_to_frame : forall targets flocs ms m,
  targets <> [] -> (fdepth targets flocs <= 1073741824)%Z ->
  Forall small_motion ms -> small_motion m ->
  let p := asked (fdepth targets flocs) (pos_after (fdepth targets flocs) ms) m in
  (0 <= p < fdepth targets flocs)%Z ->
  exists s s', run_motions (frame_init targets flocs) ms = Some s
    /\ do_motion s m = M_ok s'
    /\ f_pos s' = p
    /\ get_current_target s' = nth_error targets (Z.to_nat p).
Proof.
  intros tg fl ms m Hne Hd Hs Hm p Hp.
  destruct (run_motions_spec tg fl ms (frame_init tg fl) (finv_init tg fl (or_introl Hne)) Hd Hs) as (s & R & F & P).
  destruct (finv_depth _ _ _ F) as [Ed Efr].
  destruct (motion_spec s m (frames_ne _ _ _ F) (fi_pos _ _ _ F) ltac:(lia) Hm) as (s' & H1 & H2 & H3).
  rewrite Ed, P in H3. change (asked (fdepth tg fl) _ m) with p in H3.
  destruct H3 as [(A & B & C & D & E)|(A & _)]; [|contradiction].
  exists s, s'. split; [exact R|]. split; [exact B|]. split; [exact C|].
  unfold get_current_target. unfold cursor in D. rewrite H1, (fi_t _ _ _ F) in D.
  destruct tg as [|x tg]; [congruence|]. rewrite D, Efr.
  assert (Hn : forall (L : list nat) k, match skipn k L with x0 :: _ => Some x0 | [] => None end = nth_error L k).
  { induction L as [|z L IH]; destruct k; cbn; auto. }
  apply Hn.
Qed.
Print Assumptions C35_moves_to_frame.

Example C35_moves_to_frame_ex :
  exists s s', run_motions (frame_init [10; 11; 12; 13] []) [Up 9%Z] = Some s
    /\ do_motion s (Up 2%Z) = M_ok s' /\ get_current_target s' = Some 12.
Proof. eexists. eexists. split; [vm_compute; reflexivity|]. split; vm_compute; reflexivity. Qed.

(** An impossible motion is reported and keeps the position.  Moving below
    frame 0 with `down' also keeps the current frame. *)
Theorem C35_impossible_reported : forall targets flocs ms m,
  (targets <> [] \/ flocs <> []) -> (fdepth targets flocs <= 1073741824)%Z ->
  Forall small_motion ms -> small_motion m ->
  let p := asked (fdepth targets flocs) (pos_after (fdepth targets flocs) ms) m in
  ~ (0 <= p < fdepth targets flocs)%Z ->
  exists s s', run_motions (frame_init targets flocs) ms = Some s
    /\ do_motion s m = M_error s'
    /\ f_pos s' = f_pos s /\ f_loc s' = f_loc s
    /\ (match m with Frame _ => False | _ => (p < 0)%Z end ->
        f_targets s' = f_targets s /\ cursor s' = cursor s).
Proof.
  intros tg fl ms m Hne Hd Hs Hm p Hp.
  destruct (run_motions_spec tg fl ms (frame_init tg fl) (finv_init tg fl Hne) Hd Hs) as (s & R & F & P).
  destruct (finv_depth _ _ _ F) as [Ed Efr].
  destruct (motion_spec s m (frames_ne _ _ _ F) (fi_pos _ _ _ F) ltac:(lia) Hm) as (s' & H1 & H2 & H3).
  rewrite Ed, P in H3. change (asked (fdepth tg fl) _ m) with p in H3.
  destruct H3 as [(A & _)|(A & B & C & D & E)]; [contradiction|].
  exists s, s'. split; [exact R|]. split; [exact B|]. split; [congruence|]. split; [exact D|].
  intros Hm'. split; [exact H1|]. rewrite E. destruct m; cbn [loses].
  - contradiction.
  - apply Z.ltb_lt in Hm'. rewrite Hm'. reflexivity.
  - apply Z.ltb_lt in Hm'. rewrite Hm'. reflexivity.
Qed.
Print Assumptions C35_impossible_reported.

Example C35_impossible_ex :
  exists s', do_motion (frame_init [10; 11] []) (Down 1%Z) = M_error s'
    /\ get_current_target s' = Some 10 /\ f_pos s' = 0%Z.
Proof. eexists. split; vm_compute; auto. Qed.

(** The full claim is false: after an impossible `up' (or `frame') there is no
    current frame any more, although the position still says there is. *)
Theorem C35_failed_up_refuted :
  exists targets m s', do_motion (frame_init targets []) m = M_error s'
    /\ f_pos s' = 0%Z /\ get_current_target (frame_init targets []) = Some 10
    /\ get_current_target s' = None.
Proof. exists [10; 11], (Up 5%Z). eexists. split; vm_compute; auto. Qed.
Print Assumptions C35_failed_up_refuted.

(** In general: every `up' past the last frame loses the current frame. *)
Theorem C35_failed_up_always_refuted : forall targets flocs ms n,
  targets <> [] -> (fdepth targets flocs <= 1073741824)%Z ->
  Forall small_motion ms -> small n ->
  (fdepth targets flocs <= pos_after (fdepth targets flocs) ms + n)%Z ->
  exists s s', run_motions (frame_init targets flocs) ms = Some s
    /\ do_motion s (Up n) = M_error s' /\ get_current_target s' = None.
Proof.
  intros tg fl ms n Hne Hd Hs Hm Hp.
  destruct (run_motions_spec tg fl ms (frame_init tg fl) (finv_init tg fl (or_introl Hne)) Hd Hs) as (s & R & F & P).
  destruct (finv_depth _ _ _ F) as [Ed Efr].
  destruct (motion_spec s (Up n) (frames_ne _ _ _ F) (fi_pos _ _ _ F) ltac:(lia) Hm) as (s' & H1 & H2 & H3).
  rewrite Ed, P in H3. cbn [asked] in H3. fold (pos_after (fdepth tg fl) ms) in H3.
  change (f_pos (frame_init tg fl)) with 0%Z in H3.
  change (fold_left _ ms 0%Z) with (pos_after (fdepth tg fl) ms) in H3.
  destruct H3 as [(A & _)|(A & B & C & D & E)]; [lia|].
  exists s, s'. split; [exact R|]. split; [exact B|].
  assert (X : loses (pos_after (fdepth tg fl) ms + n) (Up n) = true).
  { cbn. apply negb_true_iff, Z.ltb_ge. unfold fdepth in *. lia. }
  rewrite X in E. unfold cursor in E. rewrite H1, (fi_t _ _ _ F) in E.
  unfold get_current_target. destruct tg; [congruence|]. rewrite E. reflexivity.
Qed.
Print Assumptions C35_failed_up_always_refuted.

(** Without the bound the arithmetic overflows. *)
Theorem C35_overflow_refuted :
  exists targets n, do_motion (frame_init targets []) (Frame n) = M_overflow.
Proof. exists [10], 2147483647%Z. vm_compute. reflexivity. Qed.
Print Assumptions C35_overflow_refuted.

(** * C36 *)

(** The command is the first word of the line and its argument is the rest
    from the second word on, for any gaps. *)
Theorem C36_command_and_argument : forall w g ws rest,
  is_word w -> is_gap g -> line_of is_gap ws rest ->
  fst (get_word (w ++ g ++ rest)) = w
  /\ skip_white (snd (get_word (w ++ g ++ rest))) = rest.
Proof. exact command_word. Qed.
Print Assumptions C36_command_and_argument.

(** Words separated by single blanks are found unchanged and in order. *)
Theorem C36_words : forall ws line, line_of one_blank ws line -> arg_words line = ws.
Proof. intros ws line H. unfold arg_words. apply (words_loop_spec ws line H). lia. Qed.
Print Assumptions C36_words.

Lemma word_ex : forall w, forallb (fun c => negb (whitespace c)) w = true -> w <> [] -> is_word w.
Proof.
  intros w H Hn. split; [exact Hn|]. intros c Hc. rewrite forallb_forall in H. apply H in Hc.
  split; intros ->; discriminate.
Qed.

Example C36_words_ex :
  line_of one_blank [s2l "foo"; s2l "run"; s2l "end"] (s2l "foo run end")
  /\ arg_words (s2l "foo run end") = [s2l "foo"; s2l "run"; s2l "end"].
Proof.
  split; [|vm_compute; reflexivity].
  apply (lo_more one_blank (s2l "foo") [c_sp] [s2l "run"; s2l "end"] (s2l "run end")).
  - apply word_ex; [reflexivity|discriminate].
  - left. reflexivity.
  - apply (lo_more one_blank (s2l "run") [c_sp] [s2l "end"] (s2l "end")).
    + apply word_ex; [reflexivity|discriminate].
    + left. reflexivity.
    + apply lo_one. apply word_ex; [reflexivity|discriminate].
Qed.

(** The full claim is false: a second blank becomes a `!' in front of the
    next word (`break foo  run' asks for the unknown modifier `!run'). *)
Theorem C36_two_blanks_refuted :
  exists ws line, line_of is_gap ws line /\ arg_words line <> ws
    /\ arg_words line = [s2l "foo"; s2l "!run"].
Proof.
  exists [s2l "foo"; s2l "run"], (s2l "foo  run"). split; [|split; [vm_compute; discriminate|vm_compute; reflexivity]].
  apply (lo_more is_gap (s2l "foo") [c_sp; c_sp] [s2l "run"] (s2l "run")).
  - apply word_ex; [reflexivity|discriminate].
  - split; [discriminate|]. intros c [<-|[<-|[]]]; auto.
  - apply lo_one. apply word_ex; [reflexivity|discriminate].
Qed.
Print Assumptions C36_two_blanks_refuted.

(** Modifier abbreviations: a word abbreviates another exactly if it is a
    prefix of it and long enough. *)
Theorem C36_abbreviation : forall sub word min,
  is_abbrev_of sub word min = true <-> min <= length sub /\ exists r, word = sub ++ r.
Proof.
  intros sub word min. unfold is_abbrev_of. destruct (length sub <? min) eqn:E.
  - apply Nat.ltb_lt in E. split; [discriminate|intros [H _]; lia].
  - apply Nat.ltb_ge in E. rewrite <- is_prefix_spec, <- strstr_0.
    destruct (strstr word sub) as [[|n]|]; split; intros H; try congruence; auto;
      destruct H; discriminate.
Qed.
Print Assumptions C36_abbreviation.

Example C36_abbreviation_ex :
  is_abbrev_of (s2l "pre") (s2l "prerequisite") 3 = true
  /\ is_abbrev_of (s2l "pr") (s2l "prerequisite") 3 = false
  /\ is_abbrev_of (s2l "r") (s2l "prerequisite") 1 = false.
Proof. vm_compute. auto. Qed.

(** * C37 *)

(** When every location lies inside its makefile the table is built without
    writing outside it, and the lookup of any line except the one after the
    last is answered from inside the table: with something on that line if
    there is something, with "nothing" otherwise. *)
Theorem C37_lookup : forall nlines ls, Forall (in_range nlines) ls ->
  exists tab, f2l_init nlines [] ls = Some tab /\
  forall f n L, nlines f = Some n -> L <> n + 1 ->
    match target_for_file_and_line tab f L with
    | L_found e => In (mkLoc f L e) ls
    | L_null_entry | L_null_unset => forall e, ~ In (mkLoc f L e) ls
    | L_out_of_bounds => False
    end.
Proof.
  intros nl ls H. destruct (init_ok nl ls [] [] (tinv_init nl) H) as (tab & E & [T1 T2 T3 T4]).
  cbn [app] in *. exists tab. split; [exact E|]. intros f n L Hn HL.
  unfold target_for_file_and_line.
  destruct (ftab_get tab f) as [a|] eqn:G.
  - destruct (T2 _ _ G) as (n' & Hn' & Hlen). rewrite Hn in Hn'. injection Hn' as <-.
    destruct (length a <? L) eqn:B.
    + apply Nat.ltb_lt in B. intros e Hi. rewrite Forall_forall in H. pose proof (H _ Hi n Hn) as R. cbn in R. lia.
    + apply Nat.ltb_ge in B. destruct (nth_error a L) as [[e|]|] eqn:N.
      * eapply T3; eassumption.
      * intros e Hi. destruct (T4 _ _ _ G Hi eq_refl) as (e' & He'). cbn in He'. congruence.
      * apply nth_error_None in N. lia.
  - intros e Hi. apply T1 in G. apply G. exists (mkLoc f L e). split; [exact Hi|]. split; [reflexivity|congruence].
Qed.
Print Assumptions C37_lookup.

Example C37_lookup_ex :
  let nl := fun f => if f =? 0 then Some 9 else None in
  let ls := [mkLoc 0 3 (F_target 7); mkLoc 0 5 (F_pattern 2)] in
  Forall (in_range nl) ls /\
  exists tab, f2l_init nl [] ls = Some tab
    /\ target_for_file_and_line tab 0 3 = L_found (F_target 7)
    /\ target_for_file_and_line tab 0 4 = L_null_entry
    /\ target_for_file_and_line tab 0 11 = L_null_unset.
Proof.
  cbn zeta. split.
  - repeat constructor; intros n H; cbn in *; injection H as <-; lia.
  - eexists. split; [vm_compute; reflexivity|]. vm_compute. auto.
Qed.

(** The full claim is false, for every makefile with a located target: the
    line just behind the table is read from outside it. *)
Theorem C37_line_after_last_refuted : forall nlines ls f n l,
  Forall (in_range nlines) ls -> In l ls -> l_file l = f -> nlines f = Some n ->
  exists tab, f2l_init nlines [] ls = Some tab
    /\ target_for_file_and_line tab f (n + 1) = L_out_of_bounds.
Proof.
  intros nl ls f n l H Hi Hf Hn.
  destruct (init_ok nl ls [] [] (tinv_init nl) H) as (tab & E & [T1 T2 T3 T4]).
  cbn [app] in *. exists tab. split; [exact E|]. unfold target_for_file_and_line.
  destruct (ftab_get tab f) as [a|] eqn:G.
  - destruct (T2 _ _ G) as (n' & Hn' & Hlen). rewrite Hn in Hn'. injection Hn' as <-.
    assert (B : (length a <? n + 1) = false) by (apply Nat.ltb_ge; lia). rewrite B.
    destruct (nth_error a (n + 1)) eqn:N; [|reflexivity].
    assert (X : n + 1 < length a) by (apply nth_error_Some; congruence). lia.
  - apply T1 in G. exfalso. apply G. exists l. split; [exact Hi|]. split; [exact Hf|congruence].
Qed.
Print Assumptions C37_line_after_last_refuted.

Example C37_line_after_last_ex :
  exists tab, f2l_init (fun _ => Some 9) [] [mkLoc 0 3 (F_target 7)] = Some tab
    /\ target_for_file_and_line tab 0 10 = L_out_of_bounds.
Proof. eexists. split; vm_compute; reflexivity. Qed.

(** `break LINE' with a line behind the table reads a type that was never
    stored. *)
Theorem C37_break_far_line_refuted : forall nlines ls f n L,
  Forall (in_range nlines) ls -> nlines f = Some n -> n + 1 < L ->
  exists tab, f2l_init nlines [] ls = Some tab /\ break_at_line tab f L = Bl_undefined.
Proof.
  intros nl ls f n L H Hn HL.
  destruct (init_ok nl ls [] [] (tinv_init nl) H) as (tab & E & [T1 T2 T3 T4]).
  exists tab. split; [exact E|]. unfold break_at_line, target_for_file_and_line.
  destruct (ftab_get tab f) as [a|] eqn:G; [|reflexivity].
  destruct (T2 _ _ G) as (n' & Hn' & Hlen). rewrite Hn in Hn'. injection Hn' as <-.
  assert (B : (length a <? L) = true) by (apply Nat.ltb_lt; lia). rewrite B. reflexivity.
Qed.
Print Assumptions C37_break_far_line_refuted.

(** A makefile found through the include path keeps its short name in the
    locations.  If a target has that short name its [nlines] is 0 and
    building the table writes outside it. *)
Theorem C37_build_overrun_refuted :
  exists nlines ls, (forall l, In l ls -> nlines (l_file l) <> None) /\ f2l_init nlines [] ls = None.
Proof.
  exists (fun _ => Some 0), [mkLoc 0 2 (F_target 7)]. split; [discriminate|]. vm_compute. reflexivity.
Qed.
Print Assumptions C37_build_overrun_refuted.

(** * C46 *)

(** Names of two and more characters resolve exactly as the tables say. *)
Theorem C46_find_command : forall name c,
  find_command name = Some c <->
  (exists cmd, In (name, cmd) aliases /\ In (cmd, c) dbg_commands)
  \/ ((forall cmd, ~ In (name, cmd) aliases) /\ In (name, c) dbg_commands).
Proof.
  intros name c. unfold find_command.
  destruct (table_search aliases name) as [cmd|] eqn:E.
  - apply (table_search_spec _ _ _ _ aliases_sorted) in E.
    rewrite (table_search_spec _ _ _ _ commands_sorted). split.
    + intros H. left. exists cmd. auto.
    + intros [(cmd' & H1 & H2)|(H1 & _)]; [|exfalso; apply (H1 _ E)].
      apply (table_search_spec _ _ _ _ aliases_sorted) in E.
      apply (table_search_spec _ _ _ _ aliases_sorted) in H1.
      assert (X : cmd = cmd') by congruence. subst. exact H2.
  - rewrite (table_search_spec _ _ _ _ commands_sorted). split.
    + intros H. right. split; [|exact H]. intros cmd Hi.
      apply (table_search_spec _ _ _ _ aliases_sorted) in Hi. congruence.
    + intros [(cmd & H1 & _)|(_ & H)]; [|exact H].
      apply (table_search_spec _ _ _ _ aliases_sorted) in H1. congruence.
Qed.
Print Assumptions C46_find_command.

(** Every full command name typed in front of arguments runs that command. *)
Theorem C46_full_names : forall name c g ws rest,
  In (name, c) dbg_commands -> is_gap g -> line_of is_gap ws rest ->
  execute_line (name ++ g ++ rest) = Some (c, rest).
Proof.
  intros name c g ws rest Hi Hg Hl.
  assert (Hw : is_word name /\ 2 <= length name /\ forall cmd, ~ In (name, cmd) aliases).
  { assert (A : forallb (fun e => forallb (fun x => negb (whitespace x)) (fst e) && (2 <=? length (fst e))
        && forallb (fun al => negb (str_eqb (fst e) (fst al))) aliases) dbg_commands = true)
      by (vm_compute; reflexivity).
    rewrite forallb_forall in A. apply A in Hi. cbn [fst] in Hi.
    apply andb_true_iff in Hi. destruct Hi as [Hi H3]. apply andb_true_iff in Hi. destruct Hi as [H1 H2].
    apply Nat.leb_le in H2. split; [|split].
    - apply word_ex; [exact H1|]. intros ->. cbn in H2. lia.
    - exact H2.
    - intros cmd Hc. rewrite forallb_forall in H3. apply H3 in Hc. cbn [fst] in Hc.
      rewrite str_eqb_refl in Hc. discriminate. }
  destruct Hw as (Hw & Hlen & Hal).
  destruct (command_word name g ws rest Hw Hg Hl) as [G1 G2].
  unfold execute_line. destruct (get_word (name ++ g ++ rest)) as [w r]. cbn [fst snd] in *. subst w.
  assert (F : find_command name = Some c) by (apply C46_find_command; right; auto).
  destruct name as [|a [|b name]]; cbn in Hlen; try lia. rewrite F, G2. reflexivity.
Qed.
Print Assumptions C46_full_names.

Example C46_full_names_ex :
  execute_line (s2l "break   foo run") = Some ("b"%char, s2l "foo run")
  /\ execute_line (s2l "bt") = Some ("T"%char, []).
Proof. vm_compute. auto. Qed.

(** The one character aliases of the table are never looked up. *)
Theorem C46_short_aliases_refuted :
  exists name cmd, In (name, cmd) aliases /\ execute_line name = None.
Proof. exists (s2l "?"), (s2l "help"). split; [cbn; auto|vm_compute; reflexivity]. Qed.
Print Assumptions C46_short_aliases_refuted.

(** * C47 *)

(** After `step N' the next N-1 stopping points of targets without
    breakpoint are passed and the N-th stops (and so do the following ones,
    until another command changes the count). *)
Theorem C47_step_counts : forall oe s n vs k,
  (forall v, In v vs -> step_point v /\ h_tracing s (fst (fst v)) = 0%N) ->
  1 <= n -> k < length vs ->
  exists s', dstep oe s (OpStep n) = Some s' /\
  nth_error (visits oe s' vs) k = Some (n <=? S k).
Proof.
  intros oe s n vs k Hv Hn Hk. destruct n as [|n]; [lia|]. eexists. split; [reflexivity|].
  rewrite (visits_step oe vs s n Hv k Hk). reflexivity.
Qed.
Print Assumptions C47_step_counts.

Example C47_step_counts_ex :
  exists s', dstep false dinit (OpStep 3) = Some s'
  /\ visits false s' [(1, true, R_before_prereq); (2, true, R_before_prereq); (2, true, R_after_cmd);
                      (1, true, R_after_cmd)] = [false; false; true; true].
Proof. eexists. split; [reflexivity|]. vm_compute. reflexivity. Qed.
