(** Proofs for C58: what names stand for. *)
From Verif Require Import Base M_Text M_Quote M_Implicit M_Ar S_Ar P_Ar S_Implicit P_Implicit M_Seq S_Quote P_Quote S_Seq P_Seq Properties_Seq S_Glob.
From Coq Require Import Lia.
Open Scope string_scope.
Open Scope list_scope.
Open Scope nat_scope.

Lemma same_pattern : forall p o, ar_pattern o p = ar_glob_pattern_p o p.
Proof.
  assert (G : forall k p o, length p <= k -> ar_pattern o p = ar_glob_pattern_p o p); [|intros p o; apply (G (length p)); lia].
  induction k as [|k IH]; intros [|c p] o L; cbn [length] in L; [reflexivity|lia|reflexivity|]. cbn [ar_pattern ar_glob_pattern_p].
  destruct ((c =?c "?") || (c =?c "*")); [reflexivity|]. destruct (c =?c c_bslash); [destruct p as [|x p]; [reflexivity|]; apply IH; cbn [length] in L; lia|].
  destruct (c =?c "["); [apply IH; lia|]. destruct (c =?c "]"); [|apply IH; lia]. cbn [andb]. destruct o; [reflexivity|apply IH; lia].
Qed.
Lemma special_iff m : ar_pattern false m = true <-> special m.
Proof. rewrite same_pattern. apply pattern_special. Qed.
Lemma wild_iff n : existsb (fun c => (c =?c "?") || (c =?c "*") || (c =?c "[")) n = true <-> wild n.
Proof.
  rewrite existsb_exists. unfold wild. split; intros (c & I & H); exists c; (split; [exact I|]).
  - apply orb_true_iff in H. rewrite orb_true_iff in H. destruct H as [[H|H]|H]; apply eqc_true in H; auto.
  - rewrite !orb_true_iff. destruct H as [-> |[-> | ->]]; auto.
Qed.
Lemma home_iff tilde n n' : home tilde n n' <-> n' = if starts_with "~" n then match tilde n with Some x => x | None => n end else n.
Proof.
  destruct n as [|c n]; cbn [starts_with].
  - split; [intros H; inversion H; reflexivity|intros ->; apply h_plain; discriminate].
  - destruct (c =?c "~") eqn:C.
    + apply eqc_true in C. subst c. split.
      * intros H. inversion H as [x X|r x X|r X]; subst; [destruct (X n eq_refl)|rewrite X; reflexivity..].
      * intros ->. destruct (tilde ("~"%char :: n)) eqn:T; [apply h_known; exact T|apply h_unknown; exact T].
    + split; [intros H; inversion H; subst; [reflexivity|rewrite eqc_refl in C; discriminate..]|]. intros ->. apply h_plain. intros r R. injection R as -> _. rewrite eqc_refl in C. discriminate.
Qed.
Lemma files_iff exist glob n l : files exist glob n l <-> l = globbed exist glob n.
Proof.
  unfold globbed. assert (W := wild_iff n). destruct (existsb _ n) eqn:E.
  - assert (WI : wild n) by tauto. rewrite andb_false_r. split.
    + intros H. inversion H as [x A B|x y A B|x A B C|x A B|x A B]; subst; try rewrite B; try rewrite C; try reflexivity; tauto.
    + intros ->. destruct (glob n) eqn:G; [apply fl_found; auto|destruct exist; [apply fl_gone|apply fl_kept]; auto|apply fl_other; auto].
  - assert (WI : ~ wild n) by (rewrite <- W; discriminate). rewrite andb_true_r. split.
    + intros H. inversion H as [x A B|x y A B|x A B C|x A B|x A B]; subst; cbn [negb]; try tauto; (destruct A as [-> |A] || subst); cbn [negb]; try tauto; rewrite B; reflexivity.
    + intros ->. destruct exist; cbn [negb]; [|apply fl_plain; auto]. destruct (glob n) eqn:G; [apply fl_found; auto|apply fl_gone; auto|apply fl_other; auto].
Qed.
Lemma entry_iff n : ar_fatal n && ar_name n = true <-> entry_name n.
Proof.
  split.
  - intros H. apply andb_true_iff in H. destruct H as [F N]. destruct (ar_parts n N) as (a & m & AP & E). unfold ar_fatal in F. rewrite AP in F. apply andb_true_iff in F. destruct F as [F1 F2].
    pose proof (at_paren_spec n) as SP. rewrite AP in SP. destruct SP as [_ SP].
    destruct m as [|c m]; [cbn in F1; discriminate|]. cbn [app starts_with] in F1. apply eqc_true in F1. subst c. rewrite rev_app_distr in F2. cbn [rev app] in F2.
    destruct (rev m) as [|d r] eqn:R; [cbn in F2; discriminate|]. cbn [app] in F2. apply eqc_true in F2. subst d. apply (f_equal (@rev ascii)) in R. rewrite rev_involutive in R. cbn [rev] in R.
    exists a, (rev r). split; [intros ->; rewrite E in N; discriminate|]. split; [exact SP|]. rewrite E, R. reflexivity.
  - intros (lib & e & L & P & ->). apply andb_true_iff. split.
    + unfold ar_fatal, of_archive. rewrite at_paren_app by exact P.
      assert (R : rev ((c_lparen :: e ++ [c_rparen]) ++ [c_rparen]) = c_rparen :: c_rparen :: rev e ++ [c_lparen]) by (rewrite rev_app_distr; cbn [rev app]; rewrite rev_app_distr; reflexivity).
      rewrite R. reflexivity.
    + apply ar_name_iff. exists lib, (c_lparen :: e ++ [c_rparen]). split; [reflexivity|]. split; [exact L|]. split; [exact P|discriminate].
Qed.
Lemma home_total tilde n : exists n', home tilde n n'.
Proof. eexists. apply home_iff. reflexivity. Qed.
Lemma home_one tilde n a b : home tilde n a -> home tilde n b -> a = b.
Proof. rewrite !home_iff. congruence. Qed.
Lemma reference_of lib m : lib <> [] -> ~ In c_lparen lib -> m <> [] -> member_reference (of_archive lib m).
Proof. intros A B C. exists lib, m. split; [reflexivity|]. split; [exact A|]. split; [exact B|exact C]. Qed.
Lemma member_names_iff members m x l : member_names members m x l <->
  l = match (if ar_pattern false m then members x m else []) with [] => [of_archive x m] | _ :: _ => map (of_archive x) (if ar_pattern false m then members x m else []) end.
Proof.
  assert (S1 := special_iff m). destruct (ar_pattern false m) eqn:P.
  - assert (SP : special m) by tauto. split.
    + intros H. destruct H as [A B|[A|A]]; [destruct (members x m); [congruence|reflexivity]|tauto|rewrite A; reflexivity].
    + intros ->. destruct (members x m) as [|y ys] eqn:M; [apply mn_plain; auto|]. rewrite <- M. apply mn_found; [exact SP|congruence].
  - assert (SP : ~ special m) by (rewrite <- S1; discriminate). split.
    + intros H. destruct H as [A B|A]; [tauto|reflexivity].
    + intros ->. apply mn_plain. auto.
Qed.
Section Emit.
  Variables noar exist nocache : bool.
  Variable prefix : option str.
  Variable tilde : str -> option str.
  Variable glob : str -> gres.
  Variable members : str -> str -> list str.
  Hypothesis OK : (nocache = false /\ prefix = None) \/ noar = true.

  Lemma emit_stands n l : stands noar exist tilde glob members n l -> emit noar false exist nocache prefix tilde glob members n = Some (map (pre prefix) l).
  Proof.
    intros H. unfold emit. destruct H as [n n' l H N F|n lib m libs ls H N L P M E F FA].
    - apply home_iff in H. cbv zeta. rewrite <- H. apply files_iff in F.
      assert (X : negb noar && ar_name n' = false).
      { destruct N as [-> |N]; [reflexivity|]. rewrite <- ar_name_iff in N. destruct (ar_name n'); [congruence|apply andb_false_r]. }
      assert (Y : negb noar && ar_fatal n' && ar_name n' = false).
      { destruct (negb noar); [|reflexivity]. cbn [andb] in *. rewrite X. apply andb_false_r. }
      rewrite Y, X, F. reflexivity.
    - apply home_iff in H. cbv zeta. rewrite <- H. apply files_iff in F. rewrite N. cbn [negb andb]. rewrite <- entry_iff in E. destruct (ar_fatal (of_archive lib m) && ar_name (of_archive lib m)); [congruence|].
      rewrite (proj2 (ar_name_iff _) (reference_of lib m L P M)). unfold of_archive at 1. rewrite at_paren_app by exact P. rewrite removelast_last. rewrite <- F. f_equal.
      destruct OK as [[NC PX]|K]; [|congruence]. subst nocache prefix. cbn [orb]. assert (ID : forall l, map (pre None) l = l) by (clear; induction l; [reflexivity|]; cbn [map]; rewrite IHl; reflexivity). rewrite ID.
      clear - FA. induction FA as [|x l libs ls H FA IH]; [reflexivity|]. cbn [flat_map concat]. rewrite IH. f_equal. apply member_names_iff in H. rewrite H. reflexivity.
  Qed.
  Lemma emit_refused n : refused noar tilde n -> emit noar false exist nocache prefix tilde glob members n = None.
  Proof.
    intros (N & n' & H & E). unfold emit. apply home_iff in H. cbv zeta. rewrite <- H, N. apply entry_iff in E. cbn [negb andb]. rewrite E. reflexivity.
  Qed.
End Emit.
Lemma forall2_total {A B} (R : A -> B -> Prop) l : (forall a, exists b, R a b) -> exists l', Forall2 R l l'.
Proof. intros H. induction l as [|a l (l' & F)]; [exists []; constructor|]. destruct (H a) as (b & K). exists (b :: l'). constructor; assumption. Qed.
Lemma stands_or noar exist tilde glob members n : (exists l, stands noar exist tilde glob members n l) \/ refused noar tilde n.
Proof.
  destruct (home_total tilde n) as (n' & H). destruct (negb noar && ar_name n') eqn:M.
  - apply andb_true_iff in M. destruct M as [N M]. apply negb_true_iff in N. destruct (ar_fatal n') eqn:F; [right; split; [exact N|]; exists n'; split; [exact H|]; apply entry_iff; rewrite F, M; reflexivity|left].
    destruct (proj1 (ar_name_iff _) M) as (lib & m & E & L & P & K). destruct (forall2_total (member_names members m) (globbed exist glob lib)) as (ls & FA); [intros x; eexists; apply member_names_iff; reflexivity|].
    exists (concat ls). change (lib ++ c_lparen :: m ++ [c_rparen]) with (of_archive lib m) in E. rewrite E in H. apply (st_member _ _ _ _ _ n lib m (globbed exist glob lib) ls H N L P K); [|apply files_iff; reflexivity|exact FA].
    rewrite <- entry_iff, <- E, F. discriminate.
  - left. exists (globbed exist glob n'). apply (st_file _ _ _ _ _ n n' _ H); [|apply files_iff; reflexivity]. destruct noar; [left; reflexivity|right]. cbn [negb andb] in M. rewrite <- ar_name_iff, M. discriminate.
Qed.
