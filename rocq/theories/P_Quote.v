From Verif Require Import Base M_Quote S_Quote.

Lemma count_bs_repeat : forall n b, (forall c b', b = c :: b' -> c <> c_bslash) ->
  count_bs (repeat c_bslash n ++ b) = n.
Proof.
  induction n as [|n IH]; intros b H; simpl.
  - destruct b as [|c b']; simpl; [reflexivity|]. case_eqc; [|reflexivity].
    exfalso. eapply H; eauto.
  - f_equal. apply IH. exact H.
Qed.

Lemma drop_repeat : forall m n b, m <= n ->
  drop m (repeat c_bslash n ++ b) = repeat c_bslash (n - m) ++ b.
Proof.
  induction m as [|m IH]; intros n b H; simpl.
  - rewrite Nat.sub_0_r. reflexivity.
  - destruct n as [|n]; [lia|]. simpl. apply IH. lia.
Qed.

Lemma half_sub : forall n, n - (n - n / 2) = n / 2.
Proof. intros n. assert (n / 2 <= n) by (apply Nat.div_le_upper_bound; lia). lia. Qed.

Lemma rev_repeat : forall (c : ascii) n, rev (repeat c n) = repeat c n.
Proof.
  intros c n. induction n as [|n IH]; simpl; [reflexivity|]. rewrite IH.
  apply (eq_sym (repeat_cons n c)).
Qed.

Lemma repeat_snoc_app : forall (c : ascii) n l, repeat c (S n) ++ l = repeat c n ++ c :: l.
Proof. intros c n l. induction n as [|n IH]; [reflexivity|]. simpl in *. rewrite IH. reflexivity. Qed.

Definition not_bs_head (b : str) : Prop := forall c b', b = c :: b' -> c <> c_bslash.

Lemma not_bs_head_cons : forall c b, c <> c_bslash -> not_bs_head (c :: b).
Proof. intros c b H d b' E. inversion E; subst. exact H. Qed.

Lemma find_loop_spec : forall stop, stop <> c_bslash -> forall s n base, not_bs_head base ->
  find_char_unquote_loop stop (repeat c_bslash n ++ base) s =
  let (b, r) := unq (fun c => c =?c stop) n s in mkfound (rev base ++ b) r.
Proof.
  intros stop Hstop. induction s as [|c s IH]; intros n base Hb; simpl.
  - rewrite rev_app_distr, rev_repeat. reflexivity.
  - case_eqc.
    + subst c. assert (Es : (stop =?c c_bslash) = false).
      { apply Ascii.eqb_neq. exact Hstop. }
      rewrite Es. rewrite count_bs_repeat by exact Hb.
      rewrite drop_repeat by lia. rewrite half_sub.
      destruct (Nat.even n).
      * rewrite rev_app_distr, rev_repeat. reflexivity.
      * change (stop :: repeat c_bslash (n / 2) ++ base)
          with (repeat c_bslash 0 ++ (stop :: repeat c_bslash (n / 2) ++ base)).
        rewrite IH by (apply not_bs_head_cons; exact Hstop).
        destruct (unq (fun c => c =?c stop) 0 s) as [b r].
        simpl. rewrite rev_app_distr, rev_repeat. f_equal.
        rewrite <- !app_assoc. reflexivity.
    + case_eqc.
      * subst c. change (c_bslash :: repeat c_bslash n ++ base) with (repeat c_bslash (S n) ++ base).
        apply IH. exact Hb.
      * change (c :: repeat c_bslash n ++ base) with (repeat c_bslash 0 ++ (c :: repeat c_bslash n ++ base)).
        rewrite IH by (apply not_bs_head_cons; assumption).
        destruct (unq (fun c0 => c0 =?c stop) 0 s) as [b r].
        simpl. rewrite rev_app_distr, rev_repeat. f_equal.
        rewrite <- !app_assoc. reflexivity.
Qed.

Lemma find_char_unquote_spec : forall stop s, stop <> c_bslash ->
  find_char_unquote s stop =
  let (b, r) := unq (fun c => c =?c stop) 0 s in mkfound b r.
Proof.
  intros stop s H. unfold find_char_unquote.
  change (@nil ascii) with (repeat c_bslash 0 ++ []) at 1.
  rewrite find_loop_spec; [|exact H|intros c b' E; discriminate].
  destruct (unq (fun c => c =?c stop) 0 s). reflexivity.
Qed.

Lemma unq_bs : forall special m n s,
  unq special n (repeat c_bslash m ++ s) = unq special (n + m) s.
Proof.
  intros special. induction m as [|m IH]; intros n s; simpl.
  - rewrite Nat.add_0_r. reflexivity.
  - rewrite IH. f_equal. lia.
Qed.

Lemma even_2n1 : forall n, Nat.even (2 * n + 1) = false.
Proof.
  intros n. rewrite Nat.add_1_r, Nat.even_succ, <- Nat.negb_even.
  rewrite Nat.even_mul. reflexivity.
Qed.
Lemma even_2n : forall n, Nat.even (2 * n) = true.
Proof. intros n. rewrite Nat.even_mul. reflexivity. Qed.
Lemma half_2n1 : forall n, (2 * n + 1) / 2 = n.
Proof. intros n. rewrite Nat.mul_comm, Nat.div_add_l by lia. simpl. lia. Qed.
Lemma half_2n : forall n, (2 * n) / 2 = n.
Proof. intros n. rewrite Nat.mul_comm, Nat.div_mul by lia. reflexivity. Qed.

Lemma unq_quote : forall special, special c_bslash = false -> forall s n,
  unq special 0 (quote_aux (fun n => n) special n s) = (repeat c_bslash n ++ s, None).
Proof.
  intros special Hsp. induction s as [|c s IH]; intros n; cbn [quote_aux].
  - rewrite app_nil_r. rewrite <- (app_nil_r (repeat c_bslash n)) at 1.
    rewrite unq_bs. reflexivity.
  - case_eqc.
    + subst c. rewrite IH. rewrite repeat_snoc_app. reflexivity.
    + apply Ascii.eqb_neq in E. destruct (special c) eqn:Esp.
      * rewrite unq_bs. cbn [unq]. rewrite E, Esp. rewrite Nat.add_0_l.
        rewrite even_2n1, half_2n1. rewrite (IH 0). reflexivity.
      * rewrite unq_bs. cbn [unq]. rewrite E, Esp. rewrite (IH 0). reflexivity.
Qed.

Lemma unq_quote_open : forall special, special c_bslash = false ->
  forall stop post, special stop = true -> forall s n,
  unq special 0 (quote_aux (fun n => 2 * n) special n s ++ stop :: post) =
  (repeat c_bslash n ++ s, Some (stop :: post)).
Proof.
  intros special Hsp stop post Hst.
  assert (Est : (stop =?c c_bslash) = false).
  { apply Ascii.eqb_neq. intros ->. congruence. }
  induction s as [|c s IH]; intros n; cbn [quote_aux].
  - rewrite unq_bs. cbn [unq]. rewrite Est, Hst. rewrite Nat.add_0_l.
    rewrite even_2n, half_2n, app_nil_r. reflexivity.
  - case_eqc.
    + subst c. rewrite IH. rewrite repeat_snoc_app. reflexivity.
    + apply Ascii.eqb_neq in E. destruct (special c) eqn:Esp.
      * rewrite <- app_assoc. rewrite unq_bs. cbn [unq app]. rewrite E, Esp. rewrite Nat.add_0_l.
        rewrite even_2n1, half_2n1. rewrite (IH 0). reflexivity.
      * rewrite <- app_assoc. rewrite unq_bs. cbn [unq app]. rewrite E, Esp. rewrite (IH 0). reflexivity.
Qed.

Lemma find_char_quote : forall stop s, stop <> c_bslash ->
  find_char_unquote (quote (fun c => c =?c stop) s) stop = mkfound s None.
Proof.
  intros stop s H. rewrite find_char_unquote_spec by exact H. unfold quote.
  rewrite unq_quote; [reflexivity|]. apply Ascii.eqb_neq. congruence.
Qed.

Lemma find_char_quote_open : forall stop pre post, stop <> c_bslash ->
  find_char_unquote (quote_open (fun c => c =?c stop) pre ++ stop :: post) stop
  = mkfound pre (Some (stop :: post)).
Proof.
  intros stop pre post H. rewrite find_char_unquote_spec by exact H. unfold quote_open.
  rewrite unq_quote_open; [reflexivity| |apply eqc_refl]. apply Ascii.eqb_neq. congruence.
Qed.

(** find_percent_cached *)
Lemma cached_loop_eq : forall s rp, (rp <> [] \/ hd_error s <> Some c_percent) ->
  find_percent_cached_loop rp s = Some (find_char_unquote_loop c_percent rp s).
Proof.
  induction s as [|c s IH]; intros rp H; cbn [find_percent_cached_loop find_char_unquote_loop].
  - reflexivity.
  - case_eqc.
    + subst c. destruct rp as [|b rp'].
      { destruct H as [H|H]; [contradiction|]. simpl in H. congruence. }
      destruct (b =?c c_bslash) eqn:Eb.
      * destruct (Nat.even (count_bs (b :: rp'))); [reflexivity|]. apply IH. left. discriminate.
      * cbn [count_bs]. rewrite Eb. reflexivity.
    + apply IH. left. discriminate.
Qed.

Lemma find_percent_cached_eq : forall s, find_percent_cached s = Some (find_percent s).
Proof.
  intros s. unfold find_percent_cached, find_percent, find_char_unquote.
  destruct s as [|c s]; [reflexivity|]. cbn [find_char_unquote_loop]. case_eqc.
  - reflexivity.
  - rewrite cached_loop_eq by (right; simpl; congruence).
    cbn [find_char_unquote_loop]. apply Ascii.eqb_neq in E. rewrite E. reflexivity.
Qed.

(** find_map_unquote *)
Lemma map_loop_spec : forall stop var, stop c_bslash = false ->
  forall s fuel n base, not_bs_head base -> length s < fuel ->
  (var = true -> ~ In c_dollar s) ->
  find_map_unquote_loop stop var fuel (repeat c_bslash n ++ base) s =
  let (b, r) := unq stop n s in Some (mkfound (rev base ++ b) r).
Proof.
  intros stop var Hstop. induction s as [|c s IH]; intros fuel n base Hb Hf Hd;
    destruct fuel as [|fuel]; simpl in Hf; try lia; cbn [find_map_unquote_loop unq].
  - rewrite rev_app_distr, rev_repeat. reflexivity.
  - assert (Hnd : var && (c =?c c_dollar) = false).
    { destruct var; [|reflexivity]. simpl. apply Ascii.eqb_neq. intros ->.
      apply (Hd eq_refl). left. reflexivity. }
    rewrite Hnd.
    assert (Hd' : var = true -> ~ In c_dollar s).
    { intros Hv Hi. apply (Hd Hv). right. exact Hi. }
    destruct (c =?c c_bslash) eqn:Ebs.
    + apply eqc_true in Ebs. subst c. rewrite Hstop.
      change (c_bslash :: repeat c_bslash n ++ base) with (repeat c_bslash (S n) ++ base).
      apply IH; auto; lia.
    + apply eqc_false in Ebs. destruct (stop c) eqn:Est.
      * rewrite count_bs_repeat by exact Hb. rewrite drop_repeat by lia. rewrite half_sub.
        destruct (Nat.even n).
        -- rewrite rev_app_distr, rev_repeat. reflexivity.
        -- change (c :: repeat c_bslash (n / 2) ++ base)
             with (repeat c_bslash 0 ++ (c :: repeat c_bslash (n / 2) ++ base)).
           rewrite IH; [|apply not_bs_head_cons; exact Ebs|lia|exact Hd'].
           destruct (unq stop 0 s) as [b r].
           simpl. rewrite rev_app_distr, rev_repeat. f_equal. f_equal.
           rewrite <- !app_assoc. reflexivity.
      * change (c :: repeat c_bslash n ++ base) with (repeat c_bslash 0 ++ (c :: repeat c_bslash n ++ base)).
        rewrite IH; [|apply not_bs_head_cons; exact Ebs|lia|exact Hd'].
        destruct (unq stop 0 s) as [b r].
        simpl. rewrite rev_app_distr, rev_repeat. f_equal. f_equal.
        rewrite <- !app_assoc. reflexivity.
Qed.

Lemma find_map_unquote_spec : forall stop var s, stop c_bslash = false ->
  (var = true -> ~ In c_dollar s) ->
  find_map_unquote stop var s = let (b, r) := unq stop 0 s in Some (mkfound b r).
Proof.
  intros stop var s H Hd. unfold find_map_unquote.
  change (@nil ascii) with (repeat c_bslash 0 ++ []) at 1.
  rewrite map_loop_spec; [|exact H|intros c b' E; discriminate|simpl; lia|exact Hd].
  destruct (unq stop 0 s). reflexivity.
Qed.

Lemma skip_ref_balanced : forall o c b, o <> c -> balanced o c b -> forall d rp rest,
  skip_ref o c d rp (b ++ rest) = skip_ref o c d (rev b ++ rp) rest.
Proof.
  intros o c b Hoc HB. induction HB as [|x b Hxo Hxc HB IH|b1 b2 H1 IH1 H2 IH2]; intros d rp rest.
  - reflexivity.
  - simpl. apply Ascii.eqb_neq in Hxo, Hxc. rewrite Hxo, Hxc. rewrite IH.
    rewrite <- app_assoc. reflexivity.
  - simpl. rewrite eqc_refl. rewrite <- app_assoc. rewrite IH1. simpl.
    assert (Hco : (c =?c o) = false) by (apply Ascii.eqb_neq; congruence).
    rewrite Hco, eqc_refl. rewrite IH2. f_equal.
    rewrite rev_app_distr. simpl. rewrite <- !app_assoc. reflexivity.
Qed.

Lemma map_loop_base : forall stop var fuel s base, not_bs_head base ->
  find_map_unquote_loop stop var fuel base s =
  option_map (fun f => mkfound (rev base ++ f_before f) (f_rest f))
             (find_map_unquote_loop stop var fuel [] s).
Proof.
  assert (DR : forall (r : str) m base, m <= length r -> drop m (r ++ base) = drop m r ++ base).
  { induction r as [|c r IH]; intros m base Hm; destruct m as [|m]; simpl in *; auto; try lia.
    apply IH. lia. }
  assert (CB : forall r base, not_bs_head base -> count_bs (r ++ base) = count_bs r).
  { intros r base Hx. induction r as [|c r IH]; simpl.
    - destruct base as [|b base]; [reflexivity|]. simpl.
      specialize (Hx b base eq_refl). apply Ascii.eqb_neq in Hx. rewrite Hx. reflexivity.
    - destruct (c =?c c_bslash); [rewrite IH; reflexivity|reflexivity]. }
  assert (CBle : forall r, count_bs r <= length r).
  { intros r. induction r as [|c r IH]; simpl; [lia|]. destruct (c =?c c_bslash); lia. }
  assert (SR : forall s o c d (rp base : str),
    skip_ref o c d (rp ++ base) s = let (a, b) := skip_ref o c d rp s in (a ++ base, b)).
  { induction s as [|y s IH]; intros o c d rp base; simpl; [reflexivity|].
    repeat case_eqc; try (destruct d; [reflexivity|]);
      change (y :: rp ++ base) with ((y :: rp) ++ base); apply IH. }
  intros stop var fuel.
  assert (G : forall s r base, not_bs_head base ->
    find_map_unquote_loop stop var fuel (r ++ base) s =
    option_map (fun f => mkfound (rev base ++ f_before f) (f_rest f))
               (find_map_unquote_loop stop var fuel r s)).
  { induction fuel as [|fuel IH]; intros s r base Hx; [reflexivity|].
    destruct s as [|c s]; cbn [find_map_unquote_loop].
    - simpl. rewrite !rev_app_distr. reflexivity.
    - destruct (var && (c =?c c_dollar)).
      + destruct s as [|o s].
        * simpl. rewrite !rev_app_distr. simpl. rewrite <- !app_assoc. reflexivity.
        * destruct ((o =?c c_lparen) || (o =?c c_lbrace)).
          -- set (cl := if o =?c c_lparen then c_rparen else c_rbrace).
             change (o :: c :: r ++ base) with ((o :: c :: r) ++ base).
             rewrite (SR s o cl 0 (o :: c :: r) base).
             destruct (skip_ref o cl 0 (o :: c :: r) s) as [a b]. apply IH. exact Hx.
          -- change (o :: c :: r ++ base) with ((o :: c :: r) ++ base).
             apply IH; exact Hx.
      + destruct (stop c).
        * rewrite (CB r base Hx). pose proof (CBle r) as L.
          set (n := count_bs r) in *.
          rewrite (DR r (n - n / 2) base) by lia.
          destruct (Nat.even n).
          -- simpl. rewrite !rev_app_distr. reflexivity.
          -- change (c :: drop (n - n / 2) r ++ base) with ((c :: drop (n - n / 2) r) ++ base).
             apply IH; exact Hx.
        * change (c :: r ++ base) with ((c :: r) ++ base). apply IH; exact Hx. }
  intros s base Hb. exact (G s [] base Hb).
Qed.

Lemma map_loop_fuel : forall stop var f1 f2 rp s, length s < f1 -> length s < f2 ->
  find_map_unquote_loop stop var f1 rp s = find_map_unquote_loop stop var f2 rp s.
Proof.
  assert (SL : forall s o c d rp, length (snd (skip_ref o c d rp s)) <= length s).
  { induction s as [|y s IH]; intros o c d rp; simpl; [lia|].
    repeat case_eqc; try (destruct d; [simpl; lia|]);
      (eapply Nat.le_trans; [apply IH|lia]). }
  intros stop var f1. induction f1 as [|f1 IH]; intros f2 rp s H1 H2; [lia|].
  destruct f2 as [|f2]; [lia|]. destruct s as [|c s]; cbn [find_map_unquote_loop]; [reflexivity|].
  simpl in H1, H2. destruct (var && (c =?c c_dollar)).
  - destruct s as [|o s]; [reflexivity|]. simpl in H1, H2.
    destruct ((o =?c c_lparen) || (o =?c c_lbrace)); [|apply IH; lia].
    set (cl := if o =?c c_lparen then c_rparen else c_rbrace).
    pose proof (SL s o cl 0 (o :: c :: rp)) as L.
    destruct (skip_ref o cl 0 (o :: c :: rp) s) as [a b]. simpl in L. apply IH; lia.
  - destruct (stop c); [|apply IH; lia].
    destruct (Nat.even (count_bs rp)); [reflexivity|]. apply IH; lia.
Qed.

(** A complete variable reference is opaque to the search. *)
Lemma find_map_ref : forall stop o cl body s,
  (o = c_lparen /\ cl = c_rparen) \/ (o = c_lbrace /\ cl = c_rbrace) ->
  balanced o cl body ->
  find_map_unquote stop true (c_dollar :: o :: body ++ cl :: s) =
  option_map (fun f => mkfound (c_dollar :: o :: body ++ cl :: f_before f) (f_rest f))
             (find_map_unquote stop true s).
Proof.
  intros stop o cl body s Ho HB. unfold find_map_unquote.
  remember (length (c_dollar :: o :: body ++ cl :: s)) as F eqn:EF.
  remember (find_map_unquote_loop stop true (S (length s)) [] s) as R eqn:ER.
  assert (Eo : ((o =?c c_lparen) || (o =?c c_lbrace)) = true /\
               (if o =?c c_lparen then c_rparen else c_rbrace) = cl /\ o <> cl /\ cl <> c_bslash).
  { destruct Ho as [[-> ->]|[-> ->]]; repeat split; try reflexivity; discriminate. }
  destruct Eo as [E1 [E2 [E3 E4]]]. cbn [find_map_unquote_loop].
  change (c_dollar =?c c_dollar) with true. cbn [andb]. rewrite E1, E2.
  rewrite skip_ref_balanced by assumption. simpl skip_ref.
  assert (E5 : (cl =?c o) = false) by (apply Ascii.eqb_neq; congruence).
  rewrite E5, eqc_refl.
  rewrite map_loop_base by (apply not_bs_head_cons; exact E4).
  rewrite (map_loop_fuel stop true _ (S (length s)) [] s);
    [|rewrite EF; simpl; rewrite app_length; simpl; lia|lia].
  rewrite <- ER. destruct R as [f|]; [|reflexivity].
  simpl. rewrite rev_app_distr, rev_involutive. simpl. rewrite <- !app_assoc. reflexivity.
Qed.

(** unescape_char *)
Lemma unescape_bs : forall c m n s,
  unescape_char_loop c n (repeat c_bslash m ++ s) = unescape_char_loop c (n + m) s.
Proof.
  intros c. induction m as [|m IH]; intros n s; simpl.
  - rewrite Nat.add_0_r. reflexivity.
  - rewrite IH. f_equal. lia.
Qed.

Lemma unescape_quote : forall c, c <> c_bslash -> forall s n,
  unescape_char_loop c 0 (quote_aux (fun n => n) (fun d => d =?c c) n s) = repeat c_bslash n ++ s.
Proof.
  intros c Hc. induction s as [|d s IH]; intros n; cbn [quote_aux].
  - rewrite app_nil_r. rewrite <- (app_nil_r (repeat c_bslash n)) at 1.
    rewrite unescape_bs. reflexivity.
  - destruct (d =?c c_bslash) eqn:E.
    + apply eqc_true in E. subst d. rewrite IH. rewrite repeat_snoc_app. reflexivity.
    + destruct (d =?c c) eqn:E0.
      * rewrite unescape_bs. cbn [unescape_char_loop]. rewrite E, E0.
        change (0 + (2 * n + 1)) with (2 * n + 1).
        rewrite <- Nat.negb_even, even_2n1. cbn [negb andb]. rewrite half_2n1, (IH 0). reflexivity.
      * rewrite unescape_bs. cbn [unescape_char_loop]. rewrite E, E0. cbn [andb].
        rewrite (IH 0). reflexivity.
Qed.

(** collapse_continuations *)
Lemma split_lines_ne : forall s, split_lines s <> [].
Proof.
  destruct s as [|c s]; simpl; [discriminate|].
  case_eqc; [discriminate|]. destruct (split_lines s); discriminate.
Qed.

Lemma skip_blanks_lstrip : forall s, skip_blanks s = lstrip s.
Proof. induction s as [|c s IH]; simpl; [reflexivity|]. rewrite IH. reflexivity. Qed.
Lemma count_bs_leading : forall s, count_bs s = leading_bs s.
Proof. induction s as [|c s IH]; simpl; [reflexivity|]. rewrite IH. reflexivity. Qed.

Lemma leading_decomp : forall s, exists b, s = repeat c_bslash (leading_bs s) ++ b /\ not_bs_head b.
Proof.
  induction s as [|c s IH]; simpl.
  - exists []. split; [reflexivity|]. intros c b' E. discriminate.
  - case_eqc.
    + subst c. destruct IH as [b [E Hb]]. exists b. split; [simpl; rewrite <- E; reflexivity|exact Hb].
    + exists (c :: s). split; [reflexivity|]. apply not_bs_head_cons. exact E.
Qed.

Lemma halve_rev : forall seg,
  rev (drop (count_bs seg - count_bs seg / 2) seg) = halve (rev seg).
Proof.
  intros seg. unfold halve, trailing_bs. rewrite rev_involutive, count_bs_leading.
  destruct (leading_decomp seg) as [b [E Hb]]. set (n := leading_bs seg) in *.
  rewrite E. rewrite drop_repeat by lia. rewrite half_sub.
  rewrite rev_app_distr, rev_repeat. f_equal.
  rewrite rev_app_distr, rev_repeat. rewrite app_length, repeat_length, rev_length.
  replace (length b + n - n) with (length (rev b)) by (rewrite rev_length; lia).
  rewrite firstn_app, Nat.sub_diag, firstn_all. simpl. rewrite app_nil_r. reflexivity.
Qed.

Definition attach (seg : str) (ls : list str) : list str :=
  match ls with l :: ls' => (rev seg ++ l) :: ls' | [] => [rev seg] end.

Lemma collapse_loop_spec : forall posix s out seg skip,
  (skip = true -> seg = []) ->
  collapse_loop posix skip out seg s =
  join_lines posix skip (rev out)
    (if skip then split_lines s else attach seg (split_lines s)).
Proof.
  intros posix. induction s as [|c s IH]; intros out seg skip Hs; cbn [collapse_loop split_lines].
  - destruct skip; simpl.
    + rewrite (Hs eq_refl). simpl. rewrite app_nil_r. reflexivity.
    + rewrite rev_app_distr, app_nil_r. reflexivity.
  - pose proof (split_lines_ne s) as Hne. destruct (split_lines s) as [|l ls] eqn:Esl; [contradiction|].
    destruct skip.
    + rewrite (Hs eq_refl) in *. cbn [andb]. destruct (isblank c) eqn:Ebl.
      * assert (Hnl : (c =?c c_nl) = false).
        { apply Ascii.eqb_neq. intros ->. discriminate. }
        rewrite Hnl. rewrite IH by auto.
        cbn [join_lines lstrip]. rewrite Ebl. destruct ls; reflexivity.
      * case_eqc.
        -- subst c. cbn [count_bs]. simpl (0 - _). cbn [drop Nat.odd Nat.even negb].
           change (Nat.odd 0) with false. cbn iota. rewrite IH by (intros; congruence).
           cbn [join_lines lstrip]. unfold halve, trailing_bs. simpl.
           rewrite app_nil_r. rewrite ?Esl. simpl. reflexivity.
        -- rewrite IH by (intros; congruence). rewrite ?Esl. cbn [attach join_lines].
           cbn [lstrip]. rewrite Ebl. simpl. reflexivity.
    + cbn [andb]. case_eqc.
      * subst c. cbn [attach]. rewrite app_nil_r.
        assert (HJ : forall x, join_lines posix false x (rev seg :: l :: ls) =
          (let text := x ++ halve (rev seg) in
           if Nat.odd (trailing_bs (rev seg))
           then join_lines posix true ((if posix then text else rstrip text) ++ [c_sp]) (l :: ls)
           else join_lines posix false (text ++ [c_nl]) (l :: ls))) by reflexivity.
        rewrite HJ. cbv zeta.
        assert (Ho : Nat.odd (count_bs seg) = Nat.odd (trailing_bs (rev seg))).
        { unfold trailing_bs. rewrite rev_involutive, count_bs_leading. reflexivity. }
        rewrite Ho. destruct (Nat.odd (trailing_bs (rev seg))).
        -- rewrite IH by auto. rewrite ?Esl. simpl (rev (c_sp :: _)). f_equal.
           rewrite <- halve_rev. set (d := drop _ seg). f_equal. destruct posix.
           ++ rewrite rev_app_distr. reflexivity.
           ++ rewrite skip_blanks_lstrip. unfold rstrip.
              rewrite <- rev_app_distr, rev_involutive. reflexivity.
        -- rewrite IH by (intros; congruence). rewrite ?Esl. simpl (attach [] _). f_equal.
           simpl. rewrite rev_app_distr. rewrite halve_rev. reflexivity.
      * rewrite IH by (intros; congruence). rewrite ?Esl. cbn [attach]. simpl.
        rewrite <- app_assoc. reflexivity.
Qed.

Lemma collapse_spec : forall posix s,
  collapse_continuations posix s = join_lines posix false [] (split_lines s).
Proof.
  intros posix s. unfold collapse_continuations. rewrite collapse_loop_spec by (intros; auto; congruence).
  pose proof (split_lines_ne s). destruct (split_lines s) as [|l ls]; [contradiction|]. reflexivity.
Qed.

Lemma split_lines_nonl : forall s, ~ In c_nl s -> split_lines s = [s].
Proof.
  induction s as [|c s IH]; intros H; simpl; [reflexivity|].
  case_eqc; [subst; exfalso; apply H; left; reflexivity|].
  rewrite IH; [reflexivity|]. intros Hi. apply H. right. exact Hi.
Qed.

Lemma collapse_nonl : forall posix s, ~ In c_nl s -> collapse_continuations posix s = s.
Proof.
  intros posix s H. rewrite collapse_spec, split_lines_nonl by exact H. reflexivity.
Qed.

Lemma lstrip_app_bs : forall l, trailing_bs (lstrip l) = trailing_bs l.
Proof.
  intros l. unfold trailing_bs.
  assert (G : forall l, exists p, l = p ++ lstrip l /\ forall c, In c p -> isblank c = true).
  { clear. induction l as [|c l IH]; simpl.
    - exists []. split; [reflexivity|]. intros c [].
    - destruct (isblank c) eqn:E.
      + destruct IH as [p [E1 E2]]. exists (c :: p). split; [simpl; rewrite <- E1; reflexivity|].
        intros d [<-|Hd]; [exact E|apply E2; exact Hd].
      + exists []. split; [reflexivity|]. intros d []. }
  destruct (G l) as [p [E Hp]]. rewrite E at 2. rewrite rev_app_distr.
  generalize (rev (lstrip l)) as r. intros r. clear E. induction r as [|c r IH]; simpl.
  - destruct (rev p) as [|c q] eqn:Eq; [reflexivity|]. simpl.
    assert (Hc : isblank c = true). { apply Hp. apply in_rev. rewrite Eq. left. reflexivity. }
    case_eqc; [subst c; discriminate|reflexivity].
  - destruct (c =?c c_bslash); [rewrite IH|]; reflexivity.
Qed.

Lemma no_nl_lstrip : forall l, ~ In c_nl l -> ~ In c_nl (lstrip l).
Proof.
  induction l as [|c l IH]; simpl; intros H; [exact H|].
  destruct (isblank c); [|exact H]. apply IH. intros Hi. apply H. right. exact Hi.
Qed.

Lemma no_nl_halve : forall l, ~ In c_nl l -> ~ In c_nl (halve l).
Proof.
  intros l H Hi. unfold halve in Hi. apply in_app_or in Hi. destruct Hi as [Hi|Hi].
  - apply H. rewrite <- (firstn_skipn (length l - trailing_bs l) l). apply in_or_app. left. exact Hi.
  - apply repeat_spec in Hi. discriminate.
Qed.

Lemma join_no_nl : forall posix ls strip acc,
  ~ In c_nl acc -> (forall l, In l ls -> ~ In c_nl l) -> all_continued ls ->
  ~ In c_nl (join_lines posix strip acc ls).
Proof.
  intros posix. induction ls as [|l ls IH]; intros strip acc Ha Hl Hc; cbn [join_lines]; [exact Ha|].
  set (l' := if strip then lstrip l else l).
  assert (Hl' : ~ In c_nl l').
  { unfold l'. destruct strip; [apply no_nl_lstrip|]; apply Hl; left; reflexivity. }
  destruct ls as [|l2 ls].
  - intros Hi. apply in_app_or in Hi. tauto.
  - destruct Hc as [Ho Hc].
    assert (Ho' : Nat.odd (trailing_bs l') = true).
    { unfold l'. destruct strip; [rewrite lstrip_app_bs|]; exact Ho. }
    rewrite Ho'. apply IH; [|intros x Hx; apply Hl; right; exact Hx|exact Hc].
    assert (Ht : ~ In c_nl (acc ++ halve l')).
    { intros Hi. apply in_app_or in Hi. destruct Hi as [Hi|Hi]; [tauto|].
      exact (no_nl_halve l' Hl' Hi). }
    intros Hi. apply in_app_or in Hi. destruct Hi as [Hi|[Hi|[]]]; [|discriminate].
    destruct posix; [tauto|]. unfold rstrip in Hi. apply in_rev in Hi.
    eapply no_nl_lstrip; [|exact Hi]. intros Hj. apply in_rev in Hj. tauto.
Qed.

Lemma split_lines_no_nl : forall s l, In l (split_lines s) -> ~ In c_nl l.
Proof.
  induction s as [|c s IH]; simpl; intros l H.
  - destruct H as [<-|[]]. tauto.
  - revert H. case_eqc; intros H.
    + destruct H as [<-|H]; [tauto|]. apply IH. exact H.
    + destruct (split_lines s) as [|l1 ls].
      * destruct H as [<-|[]]. intros [E'|[]]. congruence.
      * destruct H as [<-|H].
        -- intros [E'|Hi]; [congruence|]. apply (IH l1); [left; reflexivity|exact Hi].
        -- apply IH. right. exact H.
Qed.

Lemma collapse_no_nl : forall posix s, all_continued (split_lines s) ->
  ~ In c_nl (collapse_continuations posix s).
Proof.
  intros posix s H. rewrite collapse_spec. apply join_no_nl; [tauto| |exact H].
  intros l Hl. eapply split_lines_no_nl. exact Hl.
Qed.

Lemma find_map_quote : forall stop s, stop c_bslash = false ->
  find_map_unquote stop false (quote stop s) = Some (mkfound s None).
Proof.
  intros stop s H. rewrite find_map_unquote_spec by (auto; discriminate).
  unfold quote. rewrite unq_quote by exact H. reflexivity.
Qed.

Lemma find_map_quote_open : forall stop pre x post, stop c_bslash = false -> stop x = true ->
  find_map_unquote stop false (quote_open stop pre ++ x :: post)
  = Some (mkfound pre (Some (x :: post))).
Proof.
  intros stop pre x post H Hx. rewrite find_map_unquote_spec by (auto; discriminate).
  unfold quote_open. rewrite unq_quote_open by assumption. reflexivity.
Qed.

Lemma unescape_quote0 : forall c s, c <> c_bslash ->
  unescape_char (quote (fun d => d =?c c) s) c = s.
Proof. intros c s H. unfold unescape_char, quote. rewrite unescape_quote by exact H. reflexivity. Qed.

Lemma filter_rev : forall (f : ascii -> bool) l, filter f (rev l) = rev (filter f l).
Proof.
  intros f l. induction l as [|x l IH]; simpl; [reflexivity|].
  rewrite filter_app, IH. simpl. destruct (f x); simpl; [reflexivity|apply app_nil_r].
Qed.

Lemma solid_lstrip : forall l, filter solid (lstrip l) = filter solid l.
Proof.
  induction l as [|c l IH]; simpl; [reflexivity|]. destruct (isblank c) eqn:E; [|reflexivity].
  rewrite IH. unfold solid at 2. rewrite E. reflexivity.
Qed.

Lemma solid_rstrip : forall l, filter solid (rstrip l) = filter solid l.
Proof.
  intros l. unfold rstrip. rewrite filter_rev, solid_lstrip, filter_rev, rev_involutive. reflexivity.
Qed.

Lemma solid_repeat_bs : forall n, filter solid (repeat c_bslash n) = [].
Proof. induction n; simpl; auto. Qed.

Lemma solid_halve : forall l, filter solid (halve l) = filter solid l.
Proof.
  intros l. unfold halve, trailing_bs.
  destruct (leading_decomp (rev l)) as [b [E Hb]]. set (n := leading_bs (rev l)) in *.
  assert (El : l = rev b ++ repeat c_bslash n).
  { rewrite <- (rev_involutive l), E, rev_app_distr, rev_repeat. reflexivity. }
  rewrite El. rewrite app_length, repeat_length.
  replace (length (rev b) + n - n) with (length (rev b)) by lia.
  rewrite firstn_app, Nat.sub_diag, firstn_all. simpl. rewrite app_nil_r.
  rewrite !filter_app, !solid_repeat_bs. reflexivity.
Qed.

Lemma solid_join : forall posix ls strip acc,
  filter solid (join_lines posix strip acc ls) = filter solid acc ++ filter solid (concat ls).
Proof.
  intros posix. induction ls as [|l ls IH]; intros strip acc; cbn [join_lines].
  - simpl. rewrite app_nil_r. reflexivity.
  - set (l' := if strip then lstrip l else l).
    assert (Hl' : filter solid l' = filter solid l).
    { unfold l'. destruct strip; [apply solid_lstrip|reflexivity]. }
    cbn [concat]. rewrite filter_app.
    destruct ls as [|l2 ls].
    + rewrite filter_app, Hl'. simpl. rewrite app_nil_r. reflexivity.
    + destruct (Nat.odd (trailing_bs l')); rewrite IH, filter_app.
      * assert (Et : filter solid (if posix then acc ++ halve l' else rstrip (acc ++ halve l'))
                     = filter solid acc ++ filter solid l).
        { destruct posix; [|rewrite solid_rstrip]; rewrite filter_app, solid_halve, Hl'; reflexivity. }
        rewrite Et. simpl (filter solid [c_sp]). rewrite app_nil_r, <- app_assoc. reflexivity.
      * rewrite filter_app, solid_halve, Hl'. simpl (filter solid [c_nl]).
        rewrite app_nil_r, <- app_assoc. reflexivity.
Qed.

Lemma solid_split : forall s, filter solid (concat (split_lines s)) = filter solid s.
Proof.
  induction s as [|c s IH]; simpl; [reflexivity|]. case_eqc.
  - subst c. simpl. exact IH.
  - pose proof (split_lines_ne s) as Hne. destruct (split_lines s) as [|l ls]; [contradiction|].
    simpl in *. rewrite IH. reflexivity.
Qed.

Lemma collapse_solid : forall posix s,
  filter solid (collapse_continuations posix s) = filter solid s.
Proof. intros posix s. rewrite collapse_spec, solid_join, solid_split. reflexivity. Qed.
