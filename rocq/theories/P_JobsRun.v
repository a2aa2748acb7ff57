(** A checker for concrete schedules of jobs: what it accepts is an execution
    of the transition system.  Used to exhibit executions. *)
From Verif Require Import Base M_Jobs S_Jobs.

(** What is started, and what comes of a child. *)
Inductive skind := KLeaf | KMake (k np dbg : bool) | KFail | KDone.
Inductive okind := EQuit | EEnd (f : nat) | ENext (s : skind).

Inductive act :=
  | ANew | AGoals | AReturn | AStart (high : bool) (s : skind)
  | AReap (i : nat) (o : okind) | ATouch
  | ALaunch (high : bool) (s : skind)
  | AEnter | ALoop | AWaiting | ASleep | AWake | ALinear | ADie (s : nat) | AExit.

Section Run.
Variable A : allowed.

Definition start_of (js : bool) (s : skind) : option started :=
  match s with
  | KLeaf => Some (SRun JLeaf)
  | KMake k np dbg => if js then Some (SRun (JMake (fresh 0 true k np dbg))) else None
  | KFail => if allow_fail A then Some SFail else None
  | KDone => Some SDone
  end.

Lemma start_of_ok : forall js s x, start_of js s = Some x -> starting A js x.
Proof.
  intros js s x H. destruct s; simpl in H.
  - inversion H. repeat constructor.
  - destruct js; inversion H. apply st_run. apply nb_make. auto.
  - destruct (allow_fail A) eqn:E; inversion H. constructor. auto.
  - inversion H. constructor.
Qed.

Definition load_okb (high : bool) : bool := negb high || allow_load A.
Lemma load_okb_ok : forall h, load_okb h = true -> load_ok A h.
Proof. intros h H Hh. subst. simpl in H. auto. Qed.

Definition dead (j : job) : bool :=
  match j with JFreed | JMake _ => false | _ => true end.

Definition outcome_of (m : make) (j : job) (o : okind) : option outcome :=
  match o with
  | EQuit => match j with
             | JExited s => if allow_quit A && m_dbg m && (s =? quit_status) then Some OQuit else None
             | _ => None
             end
  | EEnd f => if dead j then Some (OEnd f) else None
  | ENext s =>
      if dead j then
        match start_of (m_js m) s with
        | Some (SRun j') => Some (ONext j')
        | Some SFail => Some (ONext JBad)
        | _ => None
        end
      else None
  end.

Lemma dead_ok : forall j, dead j = true -> j <> JFreed /\ forall m, j <> JMake m.
Proof. intros []; simpl; split; congruence. Qed.

Lemma outcome_of_ok : forall m j o x, outcome_of m j o = Some x -> ended A m j x.
Proof.
  intros m j o x H. destruct o as [|f|s]; simpl in H.
  - destruct j; try discriminate.
    destruct (allow_quit A) eqn:E1, (m_dbg m) eqn:E2; simpl in H; try discriminate.
    destruct (Nat.eqb_spec s quit_status); [|discriminate]. inversion H; subst.
    constructor; auto.
  - destruct (dead j) eqn:E; inversion H. apply dead_ok in E. constructor; tauto.
  - destruct (dead j) eqn:E; [|discriminate]. apply dead_ok in E. destruct E.
    destruct (start_of (m_js m) s) as [[j'| |]|] eqn:Es; inversion H; subst;
      apply start_of_ok in Es; inversion Es; subst;
      [apply en_next|apply en_bad]; auto.
Qed.

Fixpoint split_at {X} (i : nat) (l : list X) : option (list X * X * list X) :=
  match l, i with
  | [], _ => None
  | x :: l', 0 => Some ([], x, l')
  | x :: l', S i' =>
      match split_at i' l' with
      | Some (a, y, b) => Some (x :: a, y, b)
      | None => None
      end
  end.
Lemma split_at_ok : forall X i (l : list X) a x b, split_at i l = Some (a, x, b) -> l = a ++ x :: b.
Proof.
  intros X i. induction i as [|i IH]; intros [|y l] a x b H; simpl in H; try discriminate.
  - inversion H; auto.
  - destruct (split_at i l) as [[[a' x'] b']|] eqn:E; inversion H; subst.
    simpl. f_equal. auto.
Qed.

Definition freedb (c : child job) : bool := match c_job c with JFreed => true | _ => false end.
Lemma freedb_ok : forall c, freedb c = true -> c_job c = JFreed.
Proof. intros c. unfold freedb. destruct (c_job c); congruence. Qed.
Lemma no_freed : forall l, existsb freedb l = false -> forall c, In c l -> c_job c <> JFreed.
Proof.
  intros l H c Hc Hf. assert (existsb freedb l = true); [|congruence].
  apply existsb_exists. exists c. split; auto. unfold freedb. rewrite Hf. auto.
Qed.

Definition lrun (a : act) (p : nat) (m : make) : option (nat * make) :=
  match a with
  | ANew => match m_pc m with PIdle => Some (p, set_pc (PSW RNew) m) | _ => None end
  | AGoals => match m_pc m with PIdle => Some (p, set_pc (PSW RIdle) m) | _ => None end
  | AReturn =>
      match m_pc m, m_wait m with
      | PSW r, [] => Some (p, set_pc (return_to r) m)
      | _, _ => None
      end
  | AStart high s =>
      match m_pc m, m_wait m, start_of (m_js m) s with
      | PSW r, id :: w, Some x =>
          if load_okb high then
            let '(b, (p', m')) := start_waiting_job high x id p (set_wait w m) in
            Some (p', match m_pc m' with
                      | PInternal => m'
                      | _ => if b then m' else set_pc (return_to r) m'
                      end)
          else None
      | _, _, _ => None
      end
  | AReap i o =>
      if reaping m && negb (existsb freedb (m_chain m)) then
        match split_at i (m_chain m) with
        | Some (l1, c, l2) =>
            match outcome_of m (c_job c) o with
            | Some x => Some (process_child x l1 c l2 p m)
            | None => None
            end
        | None => None
        end
      else None
  | ATouch =>
      if reaping m && existsb freedb (m_chain m) then Some (p, set_pc PCrash m) else None
  | ALaunch high s =>
      match start_of (m_js m) s with
      | Some x =>
          if load_okb high then
            match m_pc m with
            | PReady =>
                if m_slots m =? 0 then if m_js m then None else Some (launch high x p m)
                else if m_used m =? m_slots m then None else Some (launch high x p m)
            | PTop | PCheck => if m_tokens m =? 0 then Some (launch high x p m) else None
            | PAsleep => match p with 0 => None | S q => Some (launch high x q m) end
            | _ => None
            end
          else None
      | None => None
      end
  | AEnter =>
      match m_pc m with
      | PReady => if (m_slots m =? 0) && m_js m then Some (p, set_pc PTop m) else None
      | _ => None
      end
  | ALoop => match m_pc m with
             | PTop => if m_tokens m =? 0 then None else Some (p, set_pc PLoop m)
             | _ => None
             end
  | AWaiting => match m_pc m with PLoop => Some (p, set_pc (PSW RLoop) m) | _ => None end
  | ASleep => match m_pc m, m_chain m with
              | PCheck, _ :: _ => if m_tokens m =? 0 then None else Some (p, set_pc PAsleep m)
              | _, _ => None
              end
  | AWake => match m_pc m with PAsleep => Some (p, set_pc PTop m) | _ => None end
  | ALinear =>
      match m_pc m with
      | PLinear id =>
          if existsb (fun c => c_id c =? id) (m_chain m) || existsb (Nat.eqb id) (m_wait m)
          then None else Some (p, set_pc PIdle m)
      | _ => None
      end
  | ADie s =>
      if reaping m then
        match m_pc m with
        | PDie _ => None
        | PIdle => Some (p, set_pc (PDie s) m)
        | _ => if s =? 2 then Some (p, set_pc (PDie s) m) else None
        end
      else None
  | AExit => None
  end.

Lemma lrun_ok : forall a p m p' m', lrun a p m = Some (p', m') -> lstep A p m p' m'.
Proof.
  intros a p m p' m' H. destruct a; simpl in H.
  - destruct (m_pc m) eqn:E; inversion H; subst. constructor; auto.
  - destruct (m_pc m) eqn:E; inversion H; subst. apply ls_goals; auto.
  - destruct (m_pc m) eqn:E; try discriminate. destruct (m_wait m) eqn:Ew; inversion H; subst.
    constructor; auto.
  - destruct (m_pc m) eqn:E; try discriminate. destruct (m_wait m) as [|id w] eqn:Ew; [discriminate|].
    destruct (start_of (m_js m) s) as [x|] eqn:Es; [|discriminate].
    destruct (load_okb high) eqn:El; [|discriminate].
    destruct (start_waiting_job high x id p (set_wait w m)) as [b [p1 m1]] eqn:Ex.
    inversion H; subst.
    eapply ls_sw; eauto using load_okb_ok, start_of_ok.
  - destruct (reaping m) eqn:Er; [|discriminate].
    destruct (existsb freedb (m_chain m)) eqn:Ef; simpl in H; [discriminate|].
    destruct (split_at i (m_chain m)) as [[[l1 c] l2]|] eqn:Es; [|discriminate].
    destruct (outcome_of m (c_job c) o) as [x|] eqn:Eo; [|discriminate].
    inversion H. eapply ls_reap; eauto using no_freed, split_at_ok, outcome_of_ok.
  - destruct (reaping m) eqn:Er; [|discriminate].
    destruct (existsb freedb (m_chain m)) eqn:Ef; simpl in H; [|discriminate].
    apply existsb_exists in Ef. destruct Ef as (c & Hc & Hf). inversion H; subst.
    eapply ls_reap_crash; eauto using freedb_ok.
  - destruct (start_of (m_js m) s) as [x|] eqn:Es; [|discriminate].
    destruct (load_okb high) eqn:El; [|discriminate].
    apply start_of_ok in Es. apply load_okb_ok in El.
    destruct (m_pc m) eqn:E; try discriminate.
    + destruct (Nat.eqb_spec (m_slots m) 0).
      * destruct (m_js m) eqn:Ej; [discriminate|]. inversion H.
        eapply ls_unlimited; eauto. rewrite Ej. auto.
      * destruct (Nat.eqb_spec (m_used m) (m_slots m)); [discriminate|]. inversion H.
        eapply ls_slot; eauto.
    + destruct (Nat.eqb_spec (m_tokens m) 0); [|discriminate]. inversion H.
      eapply ls_free; eauto.
    + destruct (Nat.eqb_spec (m_tokens m) 0); [|discriminate]. inversion H.
      eapply ls_free; eauto.
    + destruct p as [|q]; [discriminate|]. inversion H. eapply ls_token; eauto.
  - destruct (m_pc m) eqn:E; try discriminate.
    destruct (Nat.eqb_spec (m_slots m) 0); [|discriminate].
    destruct (m_js m) eqn:Ej; inversion H; subst. apply ls_enter; auto.
  - destruct (m_pc m) eqn:E; try discriminate.
    destruct (Nat.eqb_spec (m_tokens m) 0); inversion H; subst. apply ls_loop; auto.
  - destruct (m_pc m) eqn:E; inversion H; subst. apply ls_waiting; auto.
  - destruct (m_pc m) eqn:E; try discriminate. destruct (m_chain m) eqn:Ec; [discriminate|].
    destruct (Nat.eqb_spec (m_tokens m) 0); inversion H; subst. apply ls_sleep; auto. congruence.
  - destruct (m_pc m) eqn:E; inversion H; subst. apply ls_wake; auto.
  - destruct (m_pc m) eqn:E; try discriminate.
    destruct (existsb (fun c0 => c_id c0 =? c) (m_chain m)) eqn:E1; [discriminate|].
    destruct (existsb (Nat.eqb c) (m_wait m)) eqn:E2; inversion H; subst.
    apply ls_linear with c; auto.
    + intros d Hd Hi. assert (existsb (fun c0 => c_id c0 =? c) (m_chain m) = true); [|congruence].
      apply existsb_exists. exists d. split; auto. apply Nat.eqb_eq. auto.
    + intros Hi. assert (existsb (Nat.eqb c) (m_wait m) = true); [|congruence].
      apply existsb_exists. exists c. split; auto. apply Nat.eqb_refl.
  - destruct (reaping m) eqn:Er; [|discriminate].
    destruct (m_pc m) eqn:E; try discriminate;
      try (destruct (Nat.eqb_spec s 2); [|discriminate]);
      inversion H; subst; apply ls_die; auto; congruence.
  - discriminate.
Qed.

(** A step of the process found by following [path] down the chains. *)
Fixpoint jrun (path : list nat) (a : act) (p : nat) (j : job)
  : option (nat * job * list job) :=
  match j with
  | JMake m =>
      match path with
      | [] =>
          match a, m_pc m with
          | AExit, PDie s =>
              if (m_used m =? 0) && ((m_tokens m =? 0) || (s =? 2) || allow_loss A)
              then Some (clean_jobserver s p m, JExited s, map c_job (m_chain m)) else None
          | AExit, PGone s =>
              if (m_tokens m =? 0) || allow_loss A
              then Some (p, JExited s, map c_job (m_chain m)) else None
          | _, _ => match lrun a p m with
                    | Some (p', m') => Some (p', JMake m', [])
                    | None => None
                    end
          end
      | i :: path' =>
          match split_at i (m_chain m) with
          | Some (l1, c, l2) =>
              match jrun path' a p (c_job c) with
              | Some (p', j', o) =>
                  Some (p', JMake (set_chain (l1 ++ Child (c_id c) (c_slot c) j' :: l2) m), o)
              | None => None
              end
          | None => None
          end
      end
  | _ => None
  end.

Lemma jrun_ok : forall path a p j p' j' o, jrun path a p j = Some (p', j', o) ->
  jstep A p j p' j' o.
Proof.
  induction path as [|i path IH]; intros a p j p' j' o H;
    destruct j as [| | | |m]; simpl in H; try discriminate.
  - assert (K : forall x, match lrun a p m with Some (p', m') => Some (p', JMake m', []) | None => None end
                  = Some x -> x = (p', j', o) -> jstep A p (JMake m) p' j' o).
    { intros x Hx ->. destruct (lrun a p m) as [[p1 m1]|] eqn:E; inversion Hx; subst.
      constructor. eapply lrun_ok; eauto. }
    destruct a; try (eapply K; eauto; fail).
    destruct (m_pc m) eqn:E; try (eapply K; eauto; fail).
    + destruct (Nat.eqb_spec (m_used m) 0); simpl in H; [|discriminate].
      destruct ((m_tokens m =? 0) || (s =? 2) || allow_loss A) eqn:El; inversion H; subst.
      apply js_exit; auto. intros H1 H2.
      destruct (Nat.eqb_spec (m_tokens m) 0); [congruence|].
      destruct (Nat.eqb_spec s 2); [congruence|]. auto.
    + destruct ((m_tokens m =? 0) || allow_loss A) eqn:El; inversion H; subst.
      apply js_gone; auto. intros H1.
      destruct (Nat.eqb_spec (m_tokens m) 0); [congruence|]. auto.
  - destruct (split_at i (m_chain m)) as [[[l1 c] l2]|] eqn:Es; [|discriminate].
    destruct (jrun path a p (c_job c)) as [[[p1 j1] o1]|] eqn:Ej; inversion H; subst.
    eapply js_below; eauto using split_at_ok.
Qed.

(** A schedule: the job of the world, the path below it, the action. *)
Fixpoint wrun (l : list (nat * list nat * act)) (w : world) : option world :=
  match l with
  | [] => Some w
  | (i, path, a) :: l' =>
      match split_at i (snd w) with
      | Some (l1, j, l2) =>
          match jrun path a (fst w) j with
          | Some (p', j', o) => wrun l' (p', l1 ++ j' :: l2 ++ o)
          | None => None
          end
      | None => None
      end
  end.

Lemma wrun_ok : forall l w0 w w', reach A w0 w -> wrun l w = Some w' -> reach A w0 w'.
Proof.
  induction l as [|[[i path] a] l IH]; intros w0 w w' Hr H; simpl in H.
  - inversion H; subst; auto.
  - destruct (split_at i (snd w)) as [[[l1 j] l2]|] eqn:Es; [|discriminate].
    destruct (jrun path a (fst w) j) as [[[p1 j1] o1]|] eqn:Ej; [|discriminate].
    eapply IH; [|exact H]. eapply r_step; [exact Hr|].
    apply split_at_ok in Es. apply jrun_ok in Ej. destruct w as [p fl]; simpl in *. subst fl.
    constructor. auto.
Qed.

Definition world_of (l : list (nat * list nat * act)) (w : world) : world :=
  match wrun l w with Some w' => w' | None => w end.
Lemma world_of_ok : forall l w, reach A w (world_of l w).
Proof.
  intros l w. unfold world_of. destruct (wrun l w) eqn:E; [|constructor].
  eapply wrun_ok; eauto. constructor.
Qed.

End Run.
