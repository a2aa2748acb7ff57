(** C24 and C25: the jobserver, job slots and waiting for children. *)
From Verif Require Import Base M_Jobs S_Jobs P_Jobs P_JobsRun.

(** * C24: the jobserver *)

(** Never more than N commands run at once under "make -jN", however many
    makes share the jobserver and whatever the schedule, as long as commands
    can be started and nobody types "quit" in the debugger of a sub-make. *)
Theorem C24_job_limit : forall A n k np dbg w,
  allow_fail A = false -> allow_quit A = false -> 1 <= n ->
  reach A (start_jobserver n k np dbg) w -> total running (snd w) <= n.
Proof.
  intros A n k np dbg w Hf Hq Hn H.
  destruct (held_reach _ _ _ _ _ _ H) as [Hh _].
  pose proof (linv_reach _ _ _ Hf Hq H ltac:(simpl; auto using jobserver_start_linv)) as Hok.
  destruct (linv_single _ _ _ _ Hf Hq (jobserver_start_linv _ _ _ _ _) H)
    as (p & j & -> & _).
  simpl in *. inversion Hok as [|? ? Hok' _]; subst.
  pose proof (running_held _ Hok'). unfold total in *. simpl in *. lia.
Qed.

(** Tokens are neither lost nor created: those in the pipe and those taken out
    by the makes add up to N-1, even if commands fail to start and children
    are left behind, as long as no make exits with a status other than 2 while
    it holds tokens. *)
Theorem C24_tokens_conserved : forall A n k np dbg w,
  allow_loss A = false ->
  reach A (start_jobserver n k np dbg) w -> fst w + total held (snd w) = n - 1.
Proof. intros A n k np dbg w Ha H. apply (held_reach _ _ _ _ _ _ H). auto. Qed.

(** In any event no token is ever created. *)
Theorem C24_no_token_created : forall A n k np dbg w,
  reach A (start_jobserver n k np dbg) w -> fst w + total held (snd w) <= n - 1.
Proof. intros A n k np dbg w H. apply (held_reach _ _ _ _ _ _ H). Qed.

(** When everything has exited all tokens are back: the first make counts
    1 + tokens = N and does not complain (src/main.c:3259-3270). *)
Theorem C24_all_tokens_back : forall A n k np dbg w,
  allow_loss A = false -> 1 <= n ->
  reach A (start_jobserver n k np dbg) w -> all_exited (snd w) -> 1 + fst w = n.
Proof.
  intros A n k np dbg w Ha Hn H Hx.
  pose proof (C24_tokens_conserved _ _ _ _ _ _ Ha H) as Hc.
  assert (total held (snd w) = 0).
  { unfold total. induction (snd w) as [|j l IH]; simpl in *; auto.
    destruct (Hx j (or_introl eq_refl)) as [s ->]. simpl.
    (* the rest *)
    clear IH Hc. assert (Hl : forall i, In i l -> exists s, i = JExited s) by (intros; apply Hx; simpl; auto).
    clear Hx. induction l as [|i l IH]; simpl; auto.
    destruct (Hl i (or_introl eq_refl)) as [s' ->]. simpl. apply IH. intros. apply Hl. simpl. auto. }
  lia.
Qed.

(** Neither of the two internal errors ("Freeing child but no tokens left",
    "no children as we go to sleep on read") can ever occur, in any mode. *)
Theorem C24_no_internal_error : forall A w0 w m n k np dbg,
  w0 = start_jobserver n k np dbg \/ w0 = start_slots n k np dbg ->
  reach A w0 w -> is_among m (snd w) -> m_pc m <> PInternal.
Proof.
  intros A w0 w m n k np dbg Hw H (j & Hj & Hin).
  assert (Hok : Forall (ok inv) (snd w)).
  { eapply inv_reach; eauto.
    destruct Hw as [->| ->]; simpl; constructor; auto; apply ok_make; simpl; auto;
      apply inv_fresh. }
  rewrite Forall_forall in Hok. pose proof (ok_in _ _ _ (Hok _ Hj) Hin) as HI.
  intros E. pose proof (i_pc _ HI) as Hp. rewrite E in Hp. auto.
Qed.

(** No deadlock over tokens: until the first make has exited there is always a
    command running, a sub-make to be waited for, or a make that is not asleep
    on the pipe and can go on. *)
Theorem C24_no_deadlock : forall A n k np dbg w,
  allow_fail A = false -> allow_quit A = false ->
  reach A (start_jobserver n k np dbg) w -> ~ all_exited (snd w) ->
  (exists m, is_among m (snd w) /\ can_go A (fst w) m) \/
  is_child JLeaf (snd w) \/ (exists s, is_child (JExited s) (snd w)).
Proof.
  intros A n k np dbg w Hf Hq H Hx.
  pose proof (linv_reach _ _ _ Hf Hq H ltac:(simpl; auto using jobserver_start_linv)) as HL.
  pose proof (jinv_reach _ _ _ _ _ _ H) as HJ.
  assert (HO : Forall (ok oinv) (snd w)).
  { eapply oinv_reach; eauto. simpl. constructor; auto. apply ok_make; simpl; auto.
    apply oinv_fresh. }
  destruct (linv_single _ _ _ _ Hf Hq (jobserver_start_linv _ _ _ _ _) H)
    as (p & j & -> & Hj). simpl in *.
  destruct Hj as [Hj|[s ->]].
  2: { exfalso. apply Hx. intros i [<-|[]]. eauto. }
  inversion HL; subst. inversion HJ; subst. inversion HO; subst.
  destruct (acting A p j) as [(m & K1 & K2)|(m & c & K1 & K2 & K3)]; auto.
  - left. exists m. split; auto. exists j. simpl. auto.
  - right. destruct K3 as [K3|[s K3]]; [left|right].
    + exists m, c. split; auto. exists j. simpl. auto.
    + exists s, m, c. split; auto. exists j. simpl. auto.
Qed.

(** A make never exits while a command it has started still runs: nothing is
    ever left without a parent. *)
Theorem C24_waits_for_jobs : forall A n k np dbg w,
  allow_fail A = false -> allow_quit A = false ->
  reach A (start_jobserver n k np dbg) w \/ reach A (start_slots n k np dbg) w ->
  length (snd w) = 1.
Proof.
  intros A n k np dbg w Hf Hq [H|H];
    destruct (linv_single _ _ _ _ Hf Hq (jobserver_start_linv _ _ _ _ _) H)
      as (p & j & -> & _); auto.
Qed.

(** ** Where this breaks *)

Definition only_load := Allow false true true false.
Definition only_fail := Allow true false false false.
Definition only_quit := Allow false false true true.

Definition at_root := map (fun a : act => (0, [] : list nat, a)).
Definition at_sub (i : nat) := map (fun a : act => (0, [i], a)).

(** new_job when nothing waits: with the free token, with a token out of the
    pipe, and without a jobserver. *)
Definition free_job (s : skind) := [ANew; AReturn; AEnter; ALaunch false s].
Definition token_job (s : skind) (high : bool) :=
  [ANew; AReturn; AEnter; ALoop; AWaiting; AReturn; ASleep; ALaunch high s].
Definition slot_job (s : skind) := [ANew; AReturn; ALaunch false s].

(** With the load limit (-l) jobs wait; a make that then exits with a status
    other than 2 (here 1: -q) keeps the tokens of its waiting jobs, and the
    first make complains about missing tokens. *)
Definition lost_run :=
  at_root (free_job KLeaf ++ token_job KLeaf true ++
           [ANew; AStart true KLeaf; AEnter; ALoop; AWaiting; AStart true KLeaf; ASleep;
            ALaunch true KLeaf; AReap 0 (EEnd 1); AExit]).

Theorem C24_lost_tokens_refuted : exists w,
  reach only_load (start_jobserver 3 false false false) w /\ all_exited (snd w) /\
  1 + fst w <> 3.
Proof.
  exists (world_of only_load lost_run (start_jobserver 3 false false false)).
  split; [apply world_of_ok|]. vm_compute. split; [|lia].
  intros j [<-|[]]. eauto.
Qed.

(** If a command cannot be started and its failure is ignored, the next line of
    the recipe runs without being counted in job_slots_used; a make that stops
    on an error then does not wait for it, its token is used again, and more
    than N commands run. *)
Definition orphan_run :=
  at_root (free_job (KMake true false false)) ++
  at_sub 0 (free_job KFail ++ [AReap 0 (ENext KLeaf); ADie 2; AExit]) ++
  at_root ([AReap 0 (EEnd 2)] ++ free_job KLeaf ++ token_job KLeaf false).

Theorem C24_failed_start_refuted : exists w,
  reach only_fail (start_jobserver 2 true false false) w /\ total running (snd w) = 3.
Proof.
  exists (world_of only_fail orphan_run (start_jobserver 2 true false false)).
  split; [apply world_of_ok|]. vm_compute. auto.
Qed.

(** "quit" in the debugger of a sub-make: the parent frees the child but
    leaves it on its chain; if another job is running it goes on to use the
    freed memory. *)
Definition quit_run :=
  at_root (free_job (KMake false false true) ++ token_job KLeaf false) ++
  at_sub 1 [ADie 77; AExit] ++
  at_root [AReap 1 EQuit; ATouch].

Theorem C24_quit_use_after_free_refuted : exists w m,
  reach only_quit (start_jobserver 2 false false true) w /\
  is_among m (snd w) /\ m_pc m = PCrash.
Proof.
  exists (world_of only_quit quit_run (start_jobserver 2 false false true)).
  exists (match snd (world_of only_quit quit_run (start_jobserver 2 false false true)) with
          | JMake m :: _ => m
          | _ => fresh 0 false false false false
          end).
  split; [apply world_of_ok|].
  split; [eexists; split; [|constructor]|]; vm_compute; auto.
Qed.

(** A second "quit" while the first make is stopping makes it exit on the spot,
    with a command still running. *)
Definition quit_twice_run :=
  at_root (free_job (KMake false false true) ++ token_job KLeaf false) ++
  at_sub 1 [ADie 77; AExit] ++
  at_root [ADie 2; AReap 1 EQuit; AExit].

Theorem C24_quit_leaves_jobs_refuted : exists w,
  reach only_quit (start_jobserver 2 false false true) w /\
  snd w = [JExited 77; JLeaf; JFreed].
Proof.
  exists (world_of only_quit quit_twice_run (start_jobserver 2 false false true)).
  split; [apply world_of_ok|]. vm_compute. auto.
Qed.

(** * C25: job slots without a jobserver *)

(** At most N commands run, as long as commands can be started and no load
    limit is in force. *)
Theorem C25_slots : forall A n k np dbg w,
  allow_fail A = false -> allow_quit A = false -> allow_load A = false -> 1 <= n ->
  reach A (start_slots n k np dbg) w -> total running (snd w) <= n.
Proof.
  intros A n k np dbg w Hf Hq Hl Hn H.
  assert (Hn0 : n <> 0) by lia.
  pose proof (sinv_reach _ _ _ _ _ _ Hf Hq Hl Hn0 H) as Hok.
  destruct (slots_root _ _ _ _ _ _ Hf Hq H) as (p & j & -> & Hj). simpl in *.
  inversion Hok as [|? ? Hok' _]; subst. unfold total. simpl.
  destruct Hj as [(m & -> & Hjs & Hsl)|[s ->]]; [|simpl; lia].
  inversion Hok' as [| | | | ? [HL HS] HF]; subst. destruct HL as (HI & HA & _).
  destruct HS as (_ & Hu & Hc & _); auto.
  destruct (allslot_count _ HA) as [C1 _].
  assert (He : m_used m = nslot (m_chain m)).
  { apply (i_exact _ HI). apply nfreed_0. intros c Hin. destruct (HA c Hin) as (_ & _ & G). auto. }
  assert (Hr : running (JMake m) <= length (m_chain m)).
  { simpl. clear - Hc. induction (m_chain m) as [|c l IH]; simpl; auto.
    assert (running (c_job c) <= 1).
    { pose proof (Hc c (or_introl eq_refl)) as G. destruct (c_job c); simpl; try lia.
      exfalso. eapply G; eauto. }
    assert (list_sum (map (fun c0 => running (c_job c0)) l) <= length l).
    { apply IH. intros. apply Hc. simpl. auto. }
    lia. }
  lia.
Qed.

(** With one slot, or under .NOTPARALLEL, a make has at most one child at any
    time, whatever happens: failing starts, load limits, debugger commands. *)
Theorem C25_one_at_a_time : forall A w0 w m n k np dbg,
  w0 = start_jobserver n k np dbg \/ w0 = start_slots n k np dbg ->
  reach A w0 w -> is_among m (snd w) -> m_slots m = 1 \/ m_np m = true ->
  length (m_chain m) <= 1.
Proof.
  intros A w0 w m n k np dbg Hw H (j & Hj & Hin) Ho.
  assert (Hok : Forall (ok oinv) (snd w)).
  { eapply oinv_reach; eauto.
    destruct Hw as [->| ->]; simpl; constructor; auto; apply ok_make; simpl; auto;
      apply oinv_fresh. }
  rewrite Forall_forall in Hok. destruct (ok_in _ _ _ (Hok _ Hj) Hin) as (HI & HO & _).
  destruct (HO Ho) as [_ Hp].
  destruct (m_pc m); try tauto; rewrite Hp; simpl; lia.
Qed.

(** With a load limit and without a jobserver all waiting jobs start together
    once the load has gone down, whatever N is; from then on the number of jobs
    is not limited at all, for the test is job_slots_used == job_slots. *)
Definition load_run :=
  at_root (slot_job KLeaf ++ [ANew; AReturn; ALaunch true KLeaf] ++
           [ANew; AStart true KLeaf; ALaunch true KLeaf] ++
           [ANew; AStart false KLeaf; AStart false KLeaf; AReturn; ALaunch false KLeaf]).

Theorem C25_load_refuted : exists w,
  reach only_load (start_slots 2 false false false) w /\ total running (snd w) = 4.
Proof.
  exists (world_of only_load load_run (start_slots 2 false false false)).
  split; [apply world_of_ok|]. vm_compute. auto.
Qed.

(** A recipe whose first command cannot be started is not counted. *)
Definition uncounted_run :=
  let one := slot_job KFail ++ [AReap 0 (ENext KLeaf)] in
  at_root (one ++ one ++ one).

Theorem C25_failed_start_refuted : exists w,
  reach only_fail (start_slots 2 false false false) w /\ total running (snd w) = 3.
Proof.
  exists (world_of only_fail uncounted_run (start_slots 2 false false false)).
  split; [apply world_of_ok|]. vm_compute. auto.
Qed.

(** * Cases that meet the hypotheses *)

(** A build with -j2 that uses its limit: a sub-make takes the token out of the
    pipe and two commands run. *)
Definition nothing := Allow false false false false.
Definition busy_run :=
  at_root (free_job (KMake false false false)) ++
  at_sub 0 (free_job KLeaf ++ token_job KLeaf false).
Definition busy := world_of nothing busy_run (start_jobserver 2 false false false).

Example busy_reached : reach nothing (start_jobserver 2 false false false) busy.
Proof. unfold busy. apply world_of_ok. Qed.
Example busy_full : total running (snd busy) = 2 /\ fst busy = 0 /\ total held (snd busy) = 1.
Proof. vm_compute. auto. Qed.

(** ... and its end. *)
Definition done_run :=
  at_sub 0 [AReap 0 (EEnd 0); AReap 0 (EEnd 0); ADie 0; AExit] ++
  at_root [AReap 0 (EEnd 0); ADie 0; AExit].
Example busy_done :
  wrun nothing done_run busy = Some (1, [JExited 0]).
Proof. vm_compute. auto. Qed.
Example busy_alive : ~ all_exited (snd busy).
Proof.
  vm_compute. intros H. destruct (H _ (or_introl eq_refl)) as [s Hs]. discriminate Hs.
Qed.

(** An error while the others still run: the make waits for them, then gives
    the tokens of its waiting jobs back. *)
Example error_done :
  wrun (Allow false true false false)
    (at_root (free_job KLeaf ++ token_job KLeaf true ++
       [ANew; AStart true KLeaf; AEnter; ALoop; AWaiting; AStart true KLeaf; ASleep;
        ALaunch true KLeaf; AReap 0 (EEnd 2); AExit]))
    (start_jobserver 3 false false false) = Some (2, [JExited 2]).
Proof. vm_compute. auto. Qed.

(** Three slots in use. *)
Example slots_full :
  total running (snd (world_of nothing (at_root (slot_job KLeaf ++ slot_job KLeaf ++ slot_job KLeaf))
                        (start_slots 3 false false false))) = 3.
Proof. vm_compute. auto. Qed.

(** One slot: a child whose first line could not be started. *)
Example linear_child :
  match wrun only_fail (at_root (slot_job KFail ++ [AReap 0 (ENext KLeaf)]))
          (start_slots 1 false false false) with
  | Some (_, [JMake m]) => m_slots m = 1 /\ length (m_chain m) = 1
  | _ => False
  end.
Proof. vm_compute. auto. Qed.

Print Assumptions C24_job_limit.
Print Assumptions C24_tokens_conserved.
Print Assumptions C24_no_token_created.
Print Assumptions C24_all_tokens_back.
Print Assumptions C24_no_internal_error.
Print Assumptions C24_no_deadlock.
Print Assumptions C24_waits_for_jobs.
Print Assumptions C24_lost_tokens_refuted.
Print Assumptions C24_failed_start_refuted.
Print Assumptions C24_quit_use_after_free_refuted.
Print Assumptions C24_quit_leaves_jobs_refuted.
Print Assumptions C25_slots.
Print Assumptions C25_one_at_a_time.
Print Assumptions C25_load_refuted.
Print Assumptions C25_failed_start_refuted.
