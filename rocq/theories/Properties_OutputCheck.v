(** The tests that W_Output computes follow from the theorems of Properties_Output. *)
From Coq Require Import NArith Lia.
From Verif Require Import Base M_Output S_Output P_Output Properties_Output S_OutputCheck W_Random W_Output.
Open Scope list_scope.
Open Scope nat_scope.

Lemma finished_iff es m c : finished es m c = true <-> In (m, Finish c) es.
Proof.
  unfold finished. rewrite existsb_exists. split.
  - intros ([m' e] & I & H). unfold is_for in H. cbn in H. destruct e; cbn in H; rewrite ?andb_false_r in H; try discriminate. rewrite andb_true_r in H.
    apply andb_true_iff in H. destruct H as [A B]. apply Nat.eqb_eq in A, B. subst. exact I.
  - intros I. exists (m, Finish c). split; auto. unfold is_for. cbn. rewrite !Nat.eqb_refl. reflexivity.
Qed.
Lemma recursive_iff es m c : recursive es m c = true <-> In (m, Start c true) es.
Proof.
  unfold recursive. rewrite existsb_exists. split.
  - intros ([m' e] & I & H). unfold is_for in H. cbn in H. destruct e; cbn in H; rewrite ?andb_false_r in H; try discriminate.
    apply andb_true_iff in H. destruct H as [H ->]. apply andb_true_iff in H. destruct H as [A B]. apply Nat.eqb_eq in A, B. subst. exact I.
  - intros I. exists (m, Start c true). split; auto. unfold is_for. cbn. rewrite !Nat.eqb_refl. reflexivity.
Qed.
Lemma has_quit_iff es m : has_quit es m = true <-> In (m, Quit) es.
Proof.
  unfold has_quit. rewrite existsb_exists. split.
  - intros ([m' e] & I & H). cbn in H. destruct e; cbn in H; rewrite ?andb_false_r in H; try discriminate. rewrite andb_true_r in H. apply Nat.eqb_eq in H. subst. exact I.
  - intros I. exists (m, Quit). split; auto. cbn. rewrite Nat.eqb_refl. reflexivity.
Qed.
Lemma locksb_locks es : locksb es = true -> locks es.
Proof. intros H m I. unfold locksb in H. rewrite forallb_forall in H. specialize (H _ I). discriminate. Qed.
Lemma dumping_not st m : negb (dumping st m) = true <-> not_dumping st m.
Proof. unfold dumping, not_dumping. destruct (m_task (s_makes st m)); cbn; split; congruence. Qed.
Lemma held_backb_held cfg es m c : held_backb cfg es m c = true -> held_back cfg es m c.
Proof.
  unfold held_backb, held_back. destruct (c_mode cfg); try discriminate; auto. intros H. right. split; auto. rewrite <- recursive_iff. destruct (recursive es m c); discriminate.
Qed.
Lemma prefixes_prefix a b : prefix a b -> prefixes a b = true.
Proof. intros (r & ->). induction a as [| x a IH]; cbn; auto. rewrite IH, Ascii.eqb_refl. reflexivity. Qed.
Lemma both_all f : (forall d, f d = true) -> both f = true.
Proof. intros H. unfold both. rewrite !H. reflexivity. Qed.
Lemma not_in (f : entry -> bool) l : (forall e, In e l -> f e = false) -> forallb (fun e => negb (f e)) l = true.
Proof. intros H. apply forallb_forall. intros e I. rewrite (H e I). reflexivity. Qed.

Lemma prefix_check cfg es st m c : run cfg init es = Some st -> t_prefix cfg es st m c = true.
Proof. intros R. apply both_all. intros d. apply prefixes_prefix, C65_prefix, R. Qed.
Lemma same_bytes_all cfg a b : (forall d, bytes (c_same cfg) d a = bytes (c_same cfg) d b) -> same_bytes cfg a b = true.
Proof. intros H. apply both_all. intros d. rewrite H. apply str_eqb_refl. Qed.
Lemma complete_check cfg es st m c : run cfg init es = Some st -> t_complete cfg es st m c = true.
Proof.
  intros R. unfold t_complete. destruct (finished es m c && negb (dumping st m)) eqn:H; auto. apply andb_true_iff in H. destruct H as [A B].
  apply same_bytes_all. intros d. apply C65_complete; auto; [apply finished_iff; auto | apply dumping_not; auto].
Qed.

Lemma last_recursive_split es m c : last_recursive es m c = true -> exists a b, es = a ++ (m, Start c true) :: b /\ forall r, ~ In (m, Start c r) b.
Proof.
  induction es as [| [m' e] es IH]; cbn; [discriminate|]. intros H.
  assert (G : last_recursive es m c = true -> exists a b, (m', e) :: es = a ++ (m, Start c true) :: b /\ forall r, ~ In (m, Start c r) b).
  { intros X. destruct (IH X) as (a & b & E & N). exists ((m', e) :: a), b. rewrite E. auto. }
  destruct e as [| c' r | | | | | | | | | |]; auto. destruct ((m' =? m) && (c' =? c)) eqn:E; auto.
  destruct (existsb (fun x => is_for m c x && match snd x with Start _ _ => true | _ => false end) es) eqn:X; auto. subst r.
  apply andb_true_iff in E. destruct E as [A B]. apply Nat.eqb_eq in A, B. subst. exists [], es. split; auto. intros r I.
  assert (Y : existsb (fun x => is_for m c x && match snd x with Start _ _ => true | _ => false end) es = true).
  { apply existsb_exists. exists (m, Start c r). split; auto. unfold is_for. cbn. rewrite !Nat.eqb_refl. reflexivity. }
  congruence.
Qed.
Lemma direct_check cfg es st m c : run cfg init es = Some st -> t_direct cfg es st m c = true.
Proof.
  intros R. unfold t_direct. assert (G : c_mode cfg <> M_recurse -> (if last_recursive es m c && negb (dumping st m) then same_bytes cfg (shown (s_term st) m c) (said es m c) else true) = true).
  { intros NR. destruct (last_recursive es m c && negb (dumping st m)) eqn:H; auto. apply andb_true_iff in H. destruct H as [A B].
    destruct (last_recursive_split es m c A) as (a & b & -> & N). apply same_bytes_all. intros d. apply C65_direct; auto. apply dumping_not; auto. }
  destruct (c_mode cfg); auto; apply G; discriminate.
Qed.
Lemma line_check cfg es st m c : run cfg init es = Some st -> t_line cfg es st m c = true.
Proof.
  intros R. unfold t_line. destruct (c_mode cfg) eqn:M; auto. destruct (dumping st m) eqn:D; auto. apply forallb_forall. intros n _.
  destruct (nth_error es n) as [[m' e]|] eqn:E; auto. destruct e as [| | | | | | c' | | | | |]; auto. destruct ((m' =? m) && (c' =? c)) eqn:Q; auto.
  apply andb_true_iff in Q. destruct Q as [A B]. apply Nat.eqb_eq in A, B. subst. apply nth_error_split in E. destruct E as (a & b & -> & <-).
  apply both_all. intros d. apply prefixes_prefix. rewrite firstn_app, Nat.sub_diag, firstn_all, app_nil_r. eapply C65_line; eauto. apply dumping_not. rewrite D. reflexivity.
Qed.

(** * Blocks *)
Lemma of_kid_text m c d t : of_kid m c (text_for m c d t) = true.
Proof. unfold of_kid. cbn. rewrite !Nat.eqb_refl. reflexivity. Qed.
Lemma body_errs m c errs b : body m c b (map (text_for m c true) errs) = true.
Proof. revert b. induction errs as [| t errs IH]; intros b; cbn [map body]; auto. rewrite of_kid_text. cbn. apply IH. Qed.
Lemma body_all m c outs errs : body m c false (map (text_for m c false) outs ++ map (text_for m c true) errs) = true.
Proof. induction outs as [| t outs IH]; cbn [map app body]; [apply body_errs|]. rewrite of_kid_text. cbn. apply IH. Qed.
Lemma body_end_of m c b l : body m c b l = true -> body_end m c b (l ++ [mkentry m None true Leave]) = true.
Proof.
  revert b. induction l as [| e l IH]; intros b H; cbn [app].
  - cbn. unfold plain. cbn. rewrite Nat.eqb_refl. reflexivity.
  - cbn [body] in H. apply andb_true_iff in H. destruct H as [H1 H2]. destruct (e_what e) as [d t | |] eqn:W; try discriminate. apply andb_true_iff in H2. destruct H2 as [H2 H3].
    destruct (l ++ [mkentry m None true Leave]) as [| x l'] eqn:E; [destruct l; discriminate|].
    change (of_kid m c e && e_dump e && match e_what e with Text d _ => (d || negb b) && body_end m c d (x :: l') | _ => false end = true).
    rewrite W, H1, H2. cbn [andb]. apply IH, H3.
Qed.
Lemma blockb_block dir m c b : block dir m c b -> blockb dir m c b = true.
Proof.
  intros [outs errs N]. destruct dir; cbn [app].
  - cbn [blockb]. assert (P : plain m Enter (mkentry m None true Enter) = true) by (unfold plain; cbn; rewrite Nat.eqb_refl; reflexivity). rewrite P.
    rewrite app_assoc, (body_end_of m c false _ (body_all m c outs errs)), andb_true_r. cbn [andb]. apply Nat.leb_le. rewrite !app_length, !map_length. cbn.
    destruct N as [N|N]; [destruct outs | destruct errs]; cbn; try congruence; lia.
  - rewrite app_nil_r. unfold blockb. destruct (map (text_for m c false) outs ++ map (text_for m c true) errs) as [| x l] eqn:E.
    + exfalso. destruct outs, errs; try discriminate. destruct N; congruence.
    + rewrite <- E. apply body_all.
Qed.
Lemma block_has dir m c b : block dir m c b -> In c (kids_in b).
Proof.
  intros [outs errs N]. unfold kids_in. apply in_flat_map. destruct N as [N|N].
  - destruct outs as [| t outs]; [congruence|]. exists (text_for m c false t). split; [|left; reflexivity]. apply in_or_app. right. left. reflexivity.
  - destruct errs as [| t errs]; [congruence|]. exists (text_for m c true t). split; [|left; reflexivity]. apply in_or_app. right. apply in_or_app. right. left. reflexivity.
Qed.

(** The same blocks from the front. *)
Inductive dumps' (dir : bool) : list nat -> list entry -> Prop :=
| Dumps_nil' : dumps' dir [] []
| Dumps_cons' : forall ms l m c b, block dir m c b -> dumps' dir ms l -> dumps' dir (m :: ms) (b ++ l).
Lemma dumps_front dir ms l : dumps dir ms l -> dumps' dir ms l.
Proof.
  assert (S : forall ms l m c b, dumps' dir ms l -> block dir m c b -> dumps' dir (ms ++ [m]) (l ++ b)).
  { intros ms' l' m c b D B. induction D as [| ms' l' m' c' b' B' D IH]; cbn.
    - rewrite <- (app_nil_r b). econstructor; eauto. constructor.
    - rewrite <- app_assoc. econstructor; eauto. }
  induction 1; [constructor | eapply S; eauto].
Qed.
Lemma dumpsb_dumps dir cs ms l : dumps' dir ms l -> (forall c, In c (kids_in l) -> In c cs) -> dumpsb dir cs ms l = true.
Proof.
  induction 1 as [| ms l m c b B D IH]; intros C; cbn [dumpsb]; auto. apply existsb_exists. exists (length b). split.
  - apply in_seq. rewrite app_length. lia.
  - rewrite firstn_app, Nat.sub_diag, firstn_all, app_nil_r, skipn_app, Nat.sub_diag, skipn_all. cbn [skipn app]. rewrite IH.
    + rewrite andb_true_r. apply existsb_exists. exists c. split; [|apply blockb_block; auto]. apply C. unfold kids_in. rewrite flat_map_app. apply in_or_app. left. eapply block_has; eauto.
    + intros c' I. apply C. unfold kids_in. rewrite flat_map_app. apply in_or_app. right. exact I.
Qed.

(** A make of which nothing is heard has done nothing. *)
Lemma untouched cfg es st m : run cfg init es = Some st -> ~ In m (map fst es) -> s_makes st m = s_makes init m.
Proof.
  revert st. induction es as [| [m' e] es IH] using rev_ind; intros st R N.
  - cbn in R. injection R as <-. reflexivity.
  - apply run_snoc in R. destruct R as (st1 & R & T). apply step_inv in T. destruct T as (M' & l & _ & -> & _). rewrite map_app in N. rewrite upd_other.
    + apply IH; auto. intros I. apply N, in_or_app. auto.
    + intros ->. apply N, in_or_app. right. left. reflexivity.
Qed.
Lemma blocks_check cfg es st : run cfg init es = Some st -> t_blocks cfg es st = true.
Proof.
  intros R. unfold t_blocks. destruct (locksb es && forallb (fun x => negb (dumping st (fst x))) es) eqn:H; auto. apply andb_true_iff in H. destruct H as [L D].
  apply dumpsb_dumps; [|intros c I; apply nodup_In; auto]. apply dumps_front, C65_blocks; auto using locksb_locks.
  intros m. destruct (in_dec Nat.eq_dec m (map fst es)) as [I|N].
  - apply in_map_iff in I. destruct I as (x & <- & I). rewrite forallb_forall in D. apply dumping_not. apply D, I.
  - unfold not_dumping. rewrite (untouched cfg es st m R N). reflexivity.
Qed.
Lemma held_check cfg es st m c : run cfg init es = Some st -> t_held cfg es st m c = true.
Proof.
  intros R. unfold t_held. destruct (held_backb cfg es m c && locksb es && negb (finished es m c)) eqn:H; auto. apply andb_true_iff in H. destruct H as [H F]. apply andb_true_iff in H. destruct H as [H L].
  apply not_in. eapply C65_held; eauto using held_backb_held, locksb_locks. rewrite <- finished_iff. destruct (finished es m c); discriminate.
Qed.
Lemma one_block_check cfg es st m c : run cfg init es = Some st -> t_one_block cfg es st m c = true.
Proof.
  intros R. unfold t_one_block. match goal with |- (if ?b then _ else _) = true => destruct b eqn:H end; auto.
  apply andb_true_iff in H. destruct H as [H W]. apply andb_true_iff in H. destruct H as [H S]. apply andb_true_iff in H. destruct H as [H D]. apply andb_true_iff in H. destruct H as [H F].
  apply andb_true_iff in H. destruct H as [H L].
  destruct (C65_one_block cfg es st m c) as (l & b & r & E & B & SB & ND & NI); auto using held_backb_held, locksb_locks.
  - apply finished_iff; auto.
  - apply dumping_not; auto.
  - intros X. rewrite X in S. discriminate.
  - intros [d [| a t]] I X; [|discriminate]. rewrite forallb_forall in W. specialize (W _ I). discriminate.
  - apply andb_true_iff. split.
    + apply forallb_forall. intros e I. destruct (of_kid m c e) eqn:O; auto.
    + rewrite E. apply existsb_exists. exists (length l). split; [apply in_seq; rewrite app_length; lia|].
      rewrite firstn_app, Nat.sub_diag, firstn_all, app_nil_r, skipn_app, Nat.sub_diag, skipn_all. cbn [skipn app].
      rewrite not_in by (intros; apply NI, in_or_app; auto). cbn [andb]. apply existsb_exists. exists (length b). split; [apply in_seq; rewrite app_length; lia|].
      rewrite firstn_app, Nat.sub_diag, firstn_all, app_nil_r, skipn_app, Nat.sub_diag, skipn_all. cbn [skipn app].
      rewrite not_in by (intros; apply NI, in_or_app; auto). rewrite (blockb_block _ _ _ _ B). cbn [andb]. apply same_bytes_all, SB.
Qed.

Lemma entering_check cfg es st m : run cfg init es = Some st -> t_entering cfg es st m = true.
Proof.
  intros R. unfold t_entering. assert (G : c_mode cfg = M_none \/ c_mode cfg = M_recurse -> (if c_print cfg then
        match made m (s_term st) with
        | [] => true
        | e :: ts => is_enter e && negb (e_dump e) && match e_kid e with None => true | Some _ => false end && forallb (fun x => negb (is_enter x)) ts && Bool.eqb (existsb is_leave ts) (has_quit es m)
        end else true) = true).
  { intros MO. destruct (c_print cfg) eqn:P; auto. destruct (C65_entering cfg es st m MO P R) as [-> | (ts & -> & NE & LV)]; auto. cbn.
    rewrite not_in.
    - cbn. apply eqb_true_iff. apply eq_true_iff_eq. rewrite has_quit_iff, <- LV, existsb_exists. split; intros (e & I & H); exists e; split; auto; unfold is_leave in *; destruct (e_what e); congruence.
    - intros e I. specialize (NE e I). unfold is_enter. destruct (e_what e); congruence. }
  destruct (c_mode cfg); auto.
Qed.
Lemma where_check cfg es st : run cfg init es = Some st -> t_where cfg st = true.
Proof.
  intros R. apply forallb_forall. intros e I. destruct (is_enter e || is_leave e) eqn:H; auto.
  destruct (C65_where cfg es st e R I) as [P D].
  - unfold is_enter, is_leave in H. destruct (e_what e); auto; discriminate.
  - rewrite P. cbn. apply eqb_true_iff. apply eq_true_iff_eq. rewrite D. destruct (c_mode cfg); intuition congruence.
Qed.

Lemma may_iff es m e : mayb es m e = true <-> may es m e.
Proof.
  assert (NQ : negb (has_quit es m) = true <-> ~ In (m, Quit) es) by (rewrite <- has_quit_iff; destruct (has_quit es m); cbn; intuition congruence).
  assert (RE : forall c, rests (phase_of es m c) = true <-> exists r, phase_of es m c = Rest r).
  { intros c. destruct (phase_of es m c) as [| r | |]; cbn; split; try (intros (r' & H)); try congruence. intros _. exists r. reflexivity. }
  destruct e; cbn [mayb may]; rewrite ?andb_true_iff, ?NQ, ?RE; try tauto; try (split; [discriminate | tauto]).
  - destruct (phase_of es m c); rewrite ?NQ; intuition congruence.
  - destruct t; intuition congruence.
  - destruct (phase_of es m c) as [| [] | |]; rewrite ?NQ; intuition congruence.
  - destruct (phase_of es m c); intuition congruence.
  - destruct (phase_of es m c); intuition congruence.
Qed.
Lemma next_check cfg es st m e : run cfg init es = Some st -> t_next cfg es st m e = true.
Proof.
  intros R. unfold t_next. destruct (of_dump e) eqn:O; auto. apply eqb_true_iff. apply eq_true_iff_eq.
  rewrite andb_true_iff, orb_true_iff, may_iff, dumping_not, <- (C65_next cfg es st m e R O), run_app, R. cbn. unfold can.
  destruct (step cfg st m e); split; try discriminate; eauto. intros (x & X). discriminate.
Qed.
Lemma goes_on_check cfg es st m : run cfg init es = Some st -> t_goes_on cfg es st m = true.
Proof.
  intros R. unfold t_goes_on. destruct (locksb es && dumping st m) eqn:H; auto. apply andb_true_iff in H. destruct H as [L D].
  destruct (C65_ends cfg es st m R (locksb_locks _ L)) as (es' & st' & R' & ND & F). destruct es' as [| [m' e] es'].
  - cbn in R'. injection R' as <-. apply dumping_not in ND. rewrite D in ND. discriminate.
  - cbn in R'. inversion F as [| ? ? E _]. subst. cbn in E. destruct (step cfg st m' e) as [st1|] eqn:T; try discriminate.
    destruct (in_dec Nat.eq_dec m' (map fst es)) as [I|N].
    + apply in_map_iff in I. destruct I as (x & EX & I). apply existsb_exists. exists x. split; auto. rewrite EX. apply existsb_exists. exists e. split; [cbn; intuition auto|].
      unfold can. rewrite T. reflexivity.
    + apply step_inv in T. destruct T as (M' & l & A & _). rewrite (untouched cfg es st m' R N) in A. destruct E as [-> | [-> | ->]]; discriminate A.
Qed.

Theorem C65_check : forall cfg es ms cs more, t_run cfg es ms cs more = true.
Proof.
  intros. unfold t_run. destruct (run cfg init es) as [st|] eqn:R; auto. rewrite (blocks_check cfg es st R), (where_check cfg es st R). cbn [andb].
  apply forallb_forall. intros m _. rewrite (entering_check cfg es st m R), (goes_on_check cfg es st m R). cbn [andb]. apply andb_true_iff. split.
  - apply forallb_forall. intros e _. apply next_check, R.
  - apply forallb_forall. intros c _. rewrite (prefix_check _ _ _ m c R), (complete_check _ _ _ m c R), (direct_check _ _ _ m c R), (line_check _ _ _ m c R), (held_check _ _ _ m c R), (one_block_check _ _ _ m c R). reflexivity.
Qed.
Lemma runs_follow l : runs_hold l = true.
Proof. apply forallb_forall. intros s _. unfold one_run. repeat match goal with |- context [let '(_, _) := ?x in _] => destruct x end. apply C65_check. Qed.
Print Assumptions C65_check.
