(** More about the text of recipes, and the output of commands. *)
From Verif Require Import Base M_Cmd M_Recipe S_Line S_Recipe P_Recipe.
From Coq Require Import Lia.

Lemma tidy_blanks w : blanks w -> forall opn cls d odd q t,
  tidy (In opn cls d odd q false) (w ++ t) = tidy (In opn cls d (match w with [] => odd | _ => false end) (q ++ w) false) t.
Proof.
  unfold blanks. induction w as [|c w IH]; intros B opn cls d odd q t.
  - rewrite app_nil_r. reflexivity.
  - cbn [forallb] in B. apply andb_true_iff in B. destruct B as [B1 B2]. cbn [app tidy andb]. rewrite B1, IH by exact B2.
    rewrite <- app_assoc. cbn [app]. destruct w; reflexivity.
Qed.
Lemma tidy_white n : forall t opn cls d odd w joined, length t <= n -> blanks w -> w <> [] ->
  exists c r, tidy (In opn cls d odd w joined) t = c :: r /\ isblank c = true.
Proof.
  induction n as [|n IH]; intros t opn cls d odd w joined L B N.
  - destruct t; [|cbn in L; lia]. destruct w as [|c w]; [congruence|]. apply andb_true_iff in B. destruct B. exists c, w. split; [reflexivity|assumption].
  - assert (WW : forall x, exists c r, w ++ x = c :: r /\ isblank c = true).
    { intros x. destruct w as [|c w]; [congruence|]. apply andb_true_iff in B. destruct B. exists c, (w ++ x). split; [reflexivity|assumption]. }
    destruct t as [|c t]; [cbn [tidy]; destruct (WW []) as (c & r & A & E); rewrite app_nil_r in A; eauto|].
    cbn in L. cbn [tidy].
    destruct (joined && isspace c); [apply IH; [lia|exact B|exact N]|].
    destruct (isblank c) eqn:BL.
    { apply IH; [lia| |destruct w; discriminate]. unfold blanks in *. rewrite forallb_app, B. cbn. rewrite BL. reflexivity. }
    destruct ((c =?c cls) && (d =? 0)); [apply WW|].
    destruct ((c =?c c_bslash) && negb odd); [|apply WW].
    destruct t as [|e t]; [apply WW|]. destruct (e =?c c_nl); [|apply WW].
    apply IH; [cbn in L; lia|reflexivity|discriminate].
Qed.
Lemma blank_nl c : isblank c = true -> c <> c_nl.
Proof. intros H ->. discriminate. Qed.
Lemma tidy_nl opn cls d odd t r : tidy (In opn cls d odd [] false) t = c_nl :: r -> exists t', t = c_nl :: t'.
Proof.
  destruct t as [|c t]; [discriminate|]. cbn [tidy andb app].
  destruct (isblank c) eqn:BL.
  { destruct (tidy_white (length t) t opn cls d false [c] false) as (x & y & E & B); [lia|cbn; unfold blanks; cbn; rewrite BL; reflexivity|discriminate|].
    rewrite E. intros H. injection H as -> _. discriminate. }
  destruct ((c =?c cls) && (d =? 0)); [intros H; injection H as -> _; eauto|].
  destruct ((c =?c c_bslash) && negb odd); [|intros H; injection H as -> _; eauto].
  destruct t as [|e t]; [intros H; injection H as -> _; eauto|]. destruct (e =?c c_nl); [|intros H; injection H as -> _; eauto].
  destruct (tidy_white (length t) t opn cls d false [c_sp] true) as (x & y & E & B); [lia|reflexivity|discriminate|].
  rewrite E. intros H. injection H as -> _. discriminate.
Qed.

Lemma tidy_twice n : forall t, length t <= n ->
  tidy Out (tidy Out t) = tidy Out t /\
  forall opn cls d odd odd2 white joined q, blanks white -> (white <> [] -> odd = false) ->
    (joined = true -> white <> []) -> (white = [] -> odd2 = odd) ->
    tidy (In opn cls d odd2 q false) (tidy (In opn cls d odd white joined) t) = q ++ tidy (In opn cls d odd white joined) t.
Proof.
  induction n as [|n IH]; intros t L.
  - destruct t; [|cbn in L; lia]. split; [reflexivity|]. intros. cbn [tidy]. rewrite <- (app_nil_r white) at 1. rewrite tidy_blanks by assumption. reflexivity.
  - destruct t as [|c t]; [split; [reflexivity|]; intros; cbn [tidy]; rewrite <- (app_nil_r white) at 1; rewrite tidy_blanks by assumption; reflexivity|].
    cbn in L. assert (IHt := IH t ltac:(lia)). split.
    + cbn [tidy]. destruct (c =?c c_dollar); [|f_equal; apply IHt].
      destruct t as [|o t]; [reflexivity|].
      assert (IHt' := IH t ltac:(cbn in L; lia)).
      destruct (o =?c c_lparen) eqn:E1; [rewrite E1; f_equal; f_equal; apply (proj2 IHt'); solve [reflexivity|congruence]|].
      destruct (o =?c c_lbrace) eqn:E2; [rewrite E1, E2; f_equal; f_equal; apply (proj2 IHt'); solve [reflexivity|congruence]|].
      destruct IHt as [IHt _].
      assert (HD : exists x, tidy Out (o :: t) = o :: x) by (cbn [tidy]; eauto). destruct HD as [x HD]. rewrite HD in *. rewrite E1, E2. f_equal. exact IHt.
    + intros opn cls d odd odd2 white joined q B O J O2.
      cbn [tidy]. destruct (joined && isspace c) eqn:JS.
      { apply andb_true_iff in JS. destruct JS as [-> _]. apply IHt; [exact B|reflexivity|exact J|]. intros E. exfalso. exact (J eq_refl E). }
      destruct (isblank c) eqn:BL.
      { apply IHt; [unfold blanks in *; rewrite forallb_app, B; cbn; rewrite BL; reflexivity|reflexivity| |].
        - intros _ E. apply app_eq_nil in E. destruct E. discriminate.
        - intros E. apply app_eq_nil in E. destruct E. discriminate. }
      assert (OO : match white with [] => odd2 | _ => false end = odd).
      { destruct white as [|x w]; [apply O2; reflexivity|]. symmetry. apply O. discriminate. }
      destruct ((c =?c cls) && (d =? 0)) eqn:CL.
      { rewrite tidy_blanks by exact B. cbn [tidy andb]. rewrite BL, CL. rewrite (proj1 IHt), app_assoc. reflexivity. }
      set (d' := if c =?c cls then d - 1 else if c =?c opn then S d else d).
      set (o' := (c =?c c_bslash) && negb odd).
      assert (PL : (o' = true -> match t with e :: _ => e =?c c_nl = false | [] => True end) ->
        tidy (In opn cls d odd2 q false) (white ++ c :: tidy (In opn cls d' o' [] false) t) = q ++ white ++ c :: tidy (In opn cls d' o' [] false) t).
      { intros NN. rewrite tidy_blanks by exact B. rewrite OO. cbn [tidy andb]. rewrite BL, CL. fold d'. fold o'.
        assert (ID : tidy (In opn cls d' o' [] false) (tidy (In opn cls d' o' [] false) t) = tidy (In opn cls d' o' [] false) t).
        { apply (proj2 IHt opn cls d' o' o' [] false []); solve [reflexivity|congruence]. }
        rewrite ID. rewrite app_assoc. destruct o'; [|reflexivity]. specialize (NN eq_refl).
        destruct (tidy (In opn cls d' true [] false) t) as [|e r] eqn:TE; [reflexivity|].
        destruct (e =?c c_nl) eqn:EN; [|reflexivity]. apply eqc_true in EN. subst e.
        destruct (tidy_nl _ _ _ _ _ _ TE) as [t' ->]. rewrite eqc_refl in NN. discriminate. }
      destruct o' eqn:OE; [|apply PL; discriminate].
      destruct t as [|e t]; [apply PL; intros _; exact I|]. destruct (e =?c c_nl) eqn:EN; [|apply PL; intros _; reflexivity].
      apply (proj2 (IH t ltac:(cbn in L; lia))); [reflexivity|reflexivity|discriminate|discriminate].
Qed.
Lemma tidy_idem t : tidy Out (tidy Out t) = tidy Out t.
Proof. exact (proj1 (tidy_twice (length t) t (le_n _))). Qed.

(** Two backslashes before a newline, with the two characters before the text. *)
Fixpoint bad (a b : bool) (t : str) : bool :=
  match t with [] => false | c :: t' => (a && b && (c =?c c_nl)) || bad b (c =?c c_bslash) t' end.
Lemma doubled_bad t : doubled t -> forall a b, bad a b t = true.
Proof.
  intros (x & y & ->). induction x as [|c x IH]; intros a b; cbn [app bad].
  - rewrite !eqc_refl. cbn [andb]. rewrite !orb_true_r. reflexivity.
  - rewrite IH, orb_true_r. reflexivity.
Qed.
Lemma bad_doubled t : forall a b, bad a b t = true ->
  (a = true /\ b = true /\ exists r, t = c_nl :: r) \/ (b = true /\ exists r, t = c_bslash :: c_nl :: r) \/ doubled t.
Proof.
  induction t as [|c t IH]; intros a b; [discriminate|]. cbn [bad]. intros H. apply orb_true_iff in H. destruct H as [H|H].
  - apply andb_true_iff in H. destruct H as [H1 H2]. apply andb_true_iff in H1. destruct H1. apply eqc_true in H2. subst. left. eauto.
  - right. destruct (IH _ _ H) as [(A & B & r & ->)|[(B & r & ->)|(x & y & ->)]].
    + apply eqc_true in B. subst. left. eauto.
    + apply eqc_true in B. subst. right. exists [], r. reflexivity.
    + right. exists (c :: x), y. reflexivity.
Qed.
Lemma bad_af a t : bad a false t = bad false false t.
Proof. destruct t; [reflexivity|]. cbn [bad]. rewrite !andb_false_r. reflexivity. Qed.
Lemma bad_mono t : forall a b, bad false false t = true -> bad a b t = true.
Proof.
  intros a b H. destruct (bad_doubled _ _ _ H) as [(A & _)|[(A & _)|D]]; [discriminate|discriminate|]. exact (doubled_bad _ D a b).
Qed.
Lemma bad_less t a b : bad a b t = false -> bad false false t = false.
Proof. intros H. destruct (bad false false t) eqn:E; [rewrite (bad_mono t a b E) in H; discriminate|reflexivity]. Qed.
Lemma bad_white w t : blanks w -> w <> [] -> forall a b, bad a b (w ++ t) = bad false false t.
Proof.
  unfold blanks. intros B N. induction w as [|c w IH]; [congruence|]. intros a b. cbn [forallb] in B. apply andb_true_iff in B. destruct B as [B1 B2].
  cbn [app bad].
  assert (E1 : c =?c c_nl = false) by (destruct (c =?c c_nl) eqn:E; [apply eqc_true in E; subst; discriminate|reflexivity]).
  assert (E2 : c =?c c_bslash = false) by (destruct (c =?c c_bslash) eqn:E; [apply eqc_true in E; subst; discriminate|reflexivity]).
  rewrite E1, E2, andb_false_r. cbn [orb]. destruct w as [|e w]; [apply bad_af|]. apply IH; [exact B2|discriminate].
Qed.
Lemma bad_step a b c t : isspace c = true -> bad a b (c :: t) = false -> bad false false t = false.
Proof.
  intros S0 H. cbn [bad] in H. apply orb_false_iff in H. destruct H as [_ H].
  assert (E2 : c =?c c_bslash = false) by (destruct (c =?c c_bslash) eqn:E; [apply eqc_true in E; subst; discriminate|reflexivity]).
  rewrite E2, bad_af in H. exact H.
Qed.
Lemma bad_cont a b t : bad a b (c_bslash :: c_nl :: t) = false -> bad false false t = false.
Proof. intros H. cbn [bad] in H. apply orb_false_iff in H. destruct H as [_ H]. apply orb_false_iff in H. destruct H as [_ H]. change (c_nl =?c c_bslash) with false in H. rewrite bad_af in H. exact H. Qed.

Lemma tidy_bad n : forall t, length t <= n ->
  (forall a b, bad a b t = false -> bad a b (tidy Out t) = false) /\
  (forall opn cls d odd a b, bad a b t = false -> bad a b (tidy (In opn cls d odd [] false) t) = false) /\
  (forall opn cls d odd w joined a b, blanks w -> w <> [] -> bad false false t = false -> bad a b (tidy (In opn cls d odd w joined) t) = false).
Proof.
  induction n as [|n IH]; intros t L.
  { destruct t; [|cbn in L; lia]. split; [reflexivity|]. split; [reflexivity|]. intros. cbn [tidy]. rewrite <- (app_nil_r w). rewrite bad_white by assumption. reflexivity. }
  destruct t as [|c t].
  { split; [reflexivity|]. split; [reflexivity|]. intros. cbn [tidy]. rewrite <- (app_nil_r w). rewrite bad_white by assumption. reflexivity. }
  cbn in L. destruct (IH t ltac:(lia)) as (I1 & I2 & I3). split; [|split].
  - intros a b H. cbn [tidy]. destruct (c =?c c_dollar).
    + destruct t as [|o t]; [exact H|].
      destruct (IH t ltac:(cbn in L; lia)) as (_ & K2 & _).
      destruct (o =?c c_lparen); [|destruct (o =?c c_lbrace)].
      * cbn [bad] in *. apply orb_false_iff in H. destruct H as [H1 H2]. rewrite H1. cbn [orb]. apply orb_false_iff in H2. destruct H2 as [H2 H3]. rewrite H2. cbn [orb]. apply K2. exact H3.
      * cbn [bad] in *. apply orb_false_iff in H. destruct H as [H1 H2]. rewrite H1. cbn [orb]. apply orb_false_iff in H2. destruct H2 as [H2 H3]. rewrite H2. cbn [orb]. apply K2. exact H3.
      * cbn [bad] in H. apply orb_false_iff in H. destruct H as [H1 H2]. cbn [bad]. rewrite H1. cbn [orb]. apply I1. exact H2.
    + cbn [bad] in *. apply orb_false_iff in H. destruct H as [H1 H2]. rewrite H1. cbn [orb]. apply I1. exact H2.
  - intros opn cls d odd a b H. cbn [tidy andb app]. destruct (isblank c) eqn:BL.
    { apply I3; [unfold blanks; cbn; rewrite BL; reflexivity|discriminate|]. eapply bad_step; [apply isblank_isspace; exact BL|exact H]. }
    assert (HH := H). cbn [bad] in H. apply orb_false_iff in H. destruct H as [H1 H2].
    destruct ((c =?c cls) && (d =? 0)); [cbn [bad]; rewrite H1; apply I1; exact H2|].
    assert (PL : forall d' o', bad a b (c :: tidy (In opn cls d' o' [] false) t) = false).
    { intros. cbn [bad]. rewrite H1. apply I2. exact H2. }
    destruct ((c =?c c_bslash) && negb odd) eqn:O; [|apply PL]. destruct t as [|e t]; [apply PL|]. destruct (e =?c c_nl) eqn:E; [|apply PL].
    apply andb_true_iff in O. destruct O as [O _]. apply eqc_true in O. apply eqc_true in E. subst.
    apply (proj2 (proj2 (IH t ltac:(cbn in L; lia)))); [reflexivity|discriminate|]. eapply bad_cont. exact HH.
  - intros opn cls d odd w joined a b B N H. cbn [tidy]. destruct (joined && isspace c) eqn:JS.
    { apply andb_true_iff in JS. destruct JS as [_ JS]. apply I3; [exact B|exact N|]. eapply bad_step; [exact JS|exact H]. }
    destruct (isblank c) eqn:BL.
    { apply I3; [unfold blanks in *; rewrite forallb_app, B; cbn; rewrite BL; reflexivity|destruct w; discriminate|]. eapply bad_step; [apply isblank_isspace; exact BL|exact H]. }
    assert (HH := H). cbn [bad andb] in H. cbn [orb] in H.
    destruct ((c =?c cls) && (d =? 0)); [rewrite bad_white by assumption; cbn [bad andb orb]; apply I1; exact H|].
    assert (PL : forall d' o', bad a b (w ++ c :: tidy (In opn cls d' o' [] false) t) = false).
    { intros. rewrite bad_white by assumption. cbn [bad andb orb]. apply I2. exact H. }
    destruct ((c =?c c_bslash) && negb odd) eqn:O; [|apply PL]. destruct t as [|e t]; [apply PL|]. destruct (e =?c c_nl) eqn:E; [|apply PL].
    apply andb_true_iff in O. destruct O as [O _]. apply eqc_true in O. apply eqc_true in E. subst.
    apply (proj2 (proj2 (IH t ltac:(cbn in L; lia)))); [reflexivity|discriminate|]. eapply bad_cont. exact HH.
Qed.
Lemma tidy_doubled t : ~ doubled t -> ~ doubled (tidy Out t).
Proof.
  intros D K. assert (E : bad false false t = false).
  { destruct (bad false false t) eqn:E; [|reflexivity]. destruct (bad_doubled _ _ _ E) as [(A & _)|[(A & _)|X]]; [discriminate|discriminate|contradiction]. }
  apply (proj1 (tidy_bad (length t) t (le_n _))) in E. rewrite (doubled_bad _ K) in E. discriminate.
Qed.

Lemma tidy_same t : ~ continued t -> tidy Out t = t /\ forall opn cls d odd w, tidy (In opn cls d odd w false) t = w ++ t.
Proof.
  assert (X : forall n t, length t <= n -> ~ continued t -> tidy Out t = t /\ forall opn cls d odd w, tidy (In opn cls d odd w false) t = w ++ t).
  { clear t. induction n as [|n IH]; intros t L D.
    { destruct t; [|cbn in L; lia]. split; [reflexivity|]. intros. cbn [tidy]. rewrite app_nil_r. reflexivity. }
    destruct t as [|c t]; [split; [reflexivity|]; intros; cbn [tidy]; rewrite app_nil_r; reflexivity|].
    cbn in L.
    assert (D' : ~ continued t) by (intros (x & y & ->); apply D; exists (c :: x), y; reflexivity).
    destruct (IH t ltac:(lia) D') as [I1 I2]. split.
    - cbn [tidy]. f_equal. destruct (c =?c c_dollar); [|exact I1]. destruct t as [|o t]; [reflexivity|].
      assert (D'' : ~ continued t) by (intros (x & y & ->); apply D'; exists (o :: x), y; reflexivity).
      destruct (IH t ltac:(cbn in L; lia) D'') as [_ K].
      destruct (o =?c c_lparen); [rewrite K; reflexivity|]. destruct (o =?c c_lbrace); [rewrite K; reflexivity|]. exact I1.
    - intros opn cls d odd w. cbn [tidy andb]. destruct (isblank c); [rewrite I2, <- app_assoc; reflexivity|].
      destruct ((c =?c cls) && (d =? 0)); [rewrite I1; reflexivity|].
      destruct ((c =?c c_bslash) && negb odd) eqn:O; [|rewrite I2; reflexivity].
      destruct t as [|e t]; [reflexivity|]. destruct (e =?c c_nl) eqn:E; [|rewrite I2; reflexivity].
      exfalso. apply D. exists [], t. apply andb_true_iff in O. destruct O as [O _]. apply eqc_true in O. apply eqc_true in E. subst. reflexivity. }
  apply (X (length t)). lia.
Qed.

Lemma solid_space c : isspace c = true -> solid c = false.
Proof. intros H. unfold solid. rewrite H. reflexivity. Qed.
Lemma solid_white w : blanks w -> filter solid w = [].
Proof.
  unfold blanks. induction w as [|c w IH]; [reflexivity|]. cbn [forallb filter]. intros H. apply andb_true_iff in H. destruct H as [H1 H2].
  rewrite solid_space by (apply isblank_isspace; exact H1). apply IH. exact H2.
Qed.
Lemma tidy_solid n : forall t, length t <= n ->
  filter solid (tidy Out t) = filter solid t /\
  forall opn cls d odd w joined, blanks w -> filter solid (tidy (In opn cls d odd w joined) t) = filter solid t.
Proof.
  induction n as [|n IH]; intros t L.
  { destruct t; [|cbn in L; lia]. split; [reflexivity|]. intros. apply solid_white. assumption. }
  destruct t as [|c t]; [split; [reflexivity|]; intros; apply solid_white; assumption|].
  cbn in L. destruct (IH t ltac:(lia)) as [I1 I2]. split.
  - cbn [tidy].
    assert (G : filter solid (if c =?c c_dollar then match t with
        | o :: q' => if o =?c c_lparen then o :: tidy (In o c_rparen 0 false [] false) q'
                     else if o =?c c_lbrace then o :: tidy (In o c_rbrace 0 false [] false) q' else tidy Out t
        | [] => [] end else tidy Out t) = filter solid t).
    { destruct (c =?c c_dollar); [|exact I1]. destruct t as [|o t]; [reflexivity|]. destruct (IH t ltac:(cbn in L; lia)) as [_ K].
      destruct (o =?c c_lparen); [cbn [filter]; rewrite K by reflexivity; reflexivity|].
      destruct (o =?c c_lbrace); [cbn [filter]; rewrite K by reflexivity; reflexivity|]. exact I1. }
    cbn [filter]. rewrite G. reflexivity.
  - intros opn cls d odd w joined B. cbn [tidy]. destruct (joined && isspace c) eqn:JS.
    { apply andb_true_iff in JS. destruct JS as [_ JS]. rewrite I2 by exact B. cbn [filter]. rewrite solid_space by exact JS. reflexivity. }
    destruct (isblank c) eqn:BL.
    { rewrite I2 by (unfold blanks in *; rewrite forallb_app, B; cbn; rewrite BL; reflexivity). cbn [filter]. rewrite solid_space by (apply isblank_isspace; exact BL). reflexivity. }
    destruct ((c =?c cls) && (d =? 0)); [rewrite filter_app, solid_white by exact B; cbn [filter app]; rewrite I1; reflexivity|].
    assert (PL : forall d' o', filter solid (w ++ c :: tidy (In opn cls d' o' [] false) t) = filter solid (c :: t)).
    { intros. rewrite filter_app, solid_white by exact B. cbn [filter app]. rewrite I2 by reflexivity. reflexivity. }
    destruct ((c =?c c_bslash) && negb odd) eqn:O; [|apply PL]. destruct t as [|e t]; [apply PL|]. destruct (e =?c c_nl) eqn:E; [|apply PL].
    apply andb_true_iff in O. destruct O as [O _]. apply eqc_true in O. apply eqc_true in E. subst.
    rewrite (proj2 (IH t ltac:(cbn in L; lia))) by reflexivity. reflexivity.
Qed.

(** The recipe prefix. *)
Lemma no_prefix_lines prefix ls : forall l, prefix <> c_nl -> ~ List.In c_nl l -> Forall (fun x => ~ List.In c_nl x) ls ->
  no_prefix prefix (unlines l ls) = unlines l (map (less_prefix prefix) ls).
Proof.
  induction ls as [|x ls IH]; intros l PN L F.
  - cbn [unlines map]. induction l as [|c l IHl]; [reflexivity|]. cbn [no_prefix].
    destruct (c =?c c_nl) eqn:E; [apply eqc_true in E; subst; exfalso; apply L; left; reflexivity|]. f_equal. apply IHl. intros G. apply L. right. exact G.
  - inversion F as [|? ? F1 F2]; subst. cbn [unlines map]. induction l as [|c l IHl].
    + cbn [app no_prefix]. rewrite eqc_refl. f_equal. destruct x as [|d x].
      * cbn [less_prefix]. destruct ls as [|y ls]; [reflexivity|].
        change (unlines [] (y :: ls)) with (c_nl :: unlines y ls). destruct (c_nl =?c prefix) eqn:E; [apply eqc_true in E; congruence|]. rewrite ?E.
        change (c_nl :: unlines y ls) with (unlines [] (y :: ls)). apply IH; [exact PN|intros []|exact F2].
      * assert (HD : forall l', unlines (d :: x) l' = d :: unlines x l') by (intros [|y l']; reflexivity).
        rewrite HD. cbn [less_prefix]. destruct (d =?c prefix).
        -- apply IH; [exact PN|intros G; apply F1; right; exact G|exact F2].
        -- rewrite <- HD. apply IH; assumption.
    + cbn [app no_prefix]. destruct (c =?c c_nl) eqn:E; [apply eqc_true in E; subst; exfalso; apply L; left; reflexivity|].
      f_equal. apply IHl. intros G. apply L. right. exact G.
Qed.

(** The output of commands. *)
Definition sub (c : ascii) : ascii := if c =?c c_nl then c_sp else c.
Definition body (u : str) : str := rev (drop_nls (rev u)).
Lemma drop_nls_app r c : drop_nls (r ++ [c]) = match drop_nls r with [] => if c =?c c_nl then [] else [c] | x => x ++ [c] end.
Proof. induction r as [|d r IH]; cbn [app drop_nls]; [reflexivity|]. destruct (d =?c c_nl); [exact IH|]. reflexivity. Qed.
Lemma body_cons c u : body (c :: u) = match body u with [] => if c =?c c_nl then [] else [c] | x => c :: x end.
Proof.
  unfold body. cbn [rev]. rewrite drop_nls_app. destruct (drop_nls (rev u)) as [|d r] eqn:E.
  - cbn [rev]. destruct (c =?c c_nl); reflexivity.
  - rewrite rev_app_distr. cbn [rev app]. destruct (rev r ++ [d]) eqn:F; [destruct (rev r); discriminate|reflexivity].
Qed.
Lemma fold_loop_spec src : ~ List.In c_nul src -> forall dst last,
  fold_loop src dst last = (dst ++ map sub (dropcr src), match body (dropcr src) with [] => last | b => length dst + length b end).
Proof.
  induction src as [|c q IH]; intros N dst last; [cbn; rewrite app_nil_r; reflexivity|].
  assert (N' : ~ List.In c_nul q) by (intros G; apply N; right; exact G).
  cbn [fold_loop]. destruct (c =?c c_nul) eqn:E0; [apply eqc_true in E0; subst; exfalso; apply N; left; reflexivity|].
  assert (D : dropcr (c :: q) = if (c =?c c_cr) && match q with d :: _ => d =?c c_nl | [] => false end then dropcr q else c :: dropcr q).
  { cbn [dropcr]. destruct q; [rewrite andb_false_r|]; reflexivity. }
  rewrite D. destruct ((c =?c c_cr) && _); [apply IH; exact N'|].
  rewrite body_cons. cbn [map]. unfold sub at 1. destruct (c =?c c_nl) eqn:E.
  - rewrite IH by exact N'. rewrite <- app_assoc. cbn [app]. f_equal. destruct (body (dropcr q)); [reflexivity|]. rewrite app_length. cbn. lia.
  - rewrite IH by exact N'. rewrite <- app_assoc. cbn [app]. f_equal. destruct (body (dropcr q)); [cbn; lia|]. rewrite app_length. cbn. lia.
Qed.
Lemma body_split u : exists k, u = body u ++ repeat c_nl k.
Proof.
  induction u as [|c u [k IH]]; [exists 0; reflexivity|]. rewrite body_cons. destruct (body u) as [|d b] eqn:E.
  - cbn [app] in IH. destruct (c =?c c_nl) eqn:F; [apply eqc_true in F; subst c; exists (S k); cbn [repeat app]; rewrite <- IH; reflexivity|].
    exists k. cbn [app]. rewrite <- IH. reflexivity.
  - exists k. cbn [app]. cbn [app] in IH. rewrite <- IH. reflexivity.
Qed.
Lemma rev_repeat (k : nat) : rev (repeat c_nl k) = repeat c_nl k.
Proof.
  induction k; [reflexivity|]. cbn [repeat rev]. rewrite IHk. clear. induction k; [reflexivity|]. cbn [repeat app]. rewrite IHk. reflexivity.
Qed.
Lemma body_last u : body u = [] \/ exists x c, body u = x ++ [c] /\ c =?c c_nl = false.
Proof.
  unfold body. assert (H : match drop_nls (rev u) with [] => True | c :: _ => c =?c c_nl = false end).
  { induction (rev u) as [|c r IH]; [exact I|]. cbn [drop_nls]. destruct (c =?c c_nl) eqn:E; [exact IH|exact E]. }
  destruct (drop_nls (rev u)) as [|c r]; [left; reflexivity|]. right. exists (rev r), c. split; [reflexivity|exact H].
Qed.
Lemma fold_newlines_spec trim src : ~ List.In c_nul src -> fold_newlines trim src = folded trim (dropcr src).
Proof.
  intros N. unfold fold_newlines. rewrite fold_loop_spec by exact N. cbn [app].
  set (u := dropcr src). destruct (body_split u) as [k U]. set (b := body u) in *.
  assert (L : match b with [] => 0 | a :: l => length (@nil ascii) + length (a :: l) end = length b) by (destruct b; reflexivity).
  rewrite L. rewrite map_length.
  assert (UL : length u = length b + k) by (rewrite U, app_length, repeat_length; reflexivity).
  unfold folded. fold sub. destruct trim; cbn [negb andb].
  - fold (body u). fold b. rewrite U at 1. rewrite map_app, firstn_app, map_length, Nat.sub_diag, firstn_all2 by (rewrite map_length; lia). cbn [firstn]. apply app_nil_r.
  - assert (DN : rev (drop_nl (rev u)) = firstn (length b + (k - 1)) u).
    { rewrite U at 1. rewrite rev_app_distr, rev_repeat. destruct k as [|k].
      - cbn [repeat app]. assert (E : drop_nl (rev b) = rev b).
        { destruct (body_last u) as [E|(x & c & E & F)]; fold b in E; rewrite E; [reflexivity|]. rewrite rev_app_distr. cbn [rev app drop_nl]. rewrite F. reflexivity. }
        rewrite E, rev_involutive. rewrite U. cbn [repeat]. rewrite app_nil_r. rewrite firstn_all2 by lia. reflexivity.
      - cbn [repeat app drop_nl]. rewrite eqc_refl. rewrite rev_app_distr, rev_involutive, rev_repeat.
        replace (S k - 1) with k by lia. rewrite U, firstn_app_2. f_equal.
        clear. symmetry. (induction k; [reflexivity|]; cbn [repeat firstn]; f_equal; exact IHk). }
    rewrite DN. rewrite <- firstn_map. f_equal. rewrite UL. destruct (length b + 1 <? length b + k) eqn:E.
    + apply Nat.ltb_lt in E. lia.
    + apply Nat.ltb_ge in E. lia.
Qed.

(** The line never grows, and the loops end. *)
Lemma trim_out_len n out : length (trim_out n out) <= length out.
Proof.
  unfold trim_out. rewrite app_length. set (k := length out - n).
  assert (D : forall s, length (drop_blanks s) <= length s).
  { induction s as [|c s IH]; [cbn; lia|]. cbn [drop_blanks]. destruct (isblank c); cbn; lia. }
  specialize (D (firstn k out)). rewrite <- (firstn_skipn k out) at 3. rewrite app_length. lia.
Qed.
Lemma in_ref_total : forall fuel opn cls ref outref count inn out t, length t < fuel -> length out <= length inn ->
  exists inn' out' t', in_ref fuel opn cls ref outref count inn out t = Some (inn', out', t') /\
    length out' <= length inn' /\ length inn' + length t' = length inn + length t /\ length t' <= length t.
Proof.
  induction fuel as [|fuel IH]; intros opn cls ref outref count inn out t F L; [lia|]. cbn [in_ref].
  destruct t as [|c q]; [exists inn, out, []; repeat split; lia|].
  destruct ((c =?c cls) && (count =? 0)); [exists inn, out, (c :: q); repeat split; lia|]. cbn in F.
  assert (PL : forall cnt, exists inn' out' t', in_ref fuel opn cls ref outref cnt (c :: inn) (c :: out) q = Some (inn', out', t') /\
    length out' <= length inn' /\ length inn' + length t' = length inn + length (c :: q) /\ length t' <= length (c :: q)).
  { intros cnt. destruct (IH opn cls ref outref cnt (c :: inn) (c :: out) q) as (i & o & t' & A & B & C & D); [lia|cbn; lia|].
    exists i, o, t'. cbn in *. repeat split; [exact A|exact B|lia|lia]. }
  destruct (c =?c c_bslash); [|apply PL]. destruct q as [|d q]; [apply PL|]. destruct (d =?c c_nl); [|apply PL].
  destruct (odd_slashes _); [apply PL|].
  destruct (next_token_spec q (d :: c :: inn)) as (s & t2 & N1 & -> & _). rewrite N1.
  pose proof (trim_out_len outref out) as T.
  destruct (IH opn cls ref outref (if c =?c cls then count - 1 else count) (rev s ++ d :: c :: inn) (c_sp :: trim_out outref out) t2) as (i & o & t' & A & B & C & D).
  - cbn in F. rewrite app_length in F. lia.
  - rewrite app_length. cbn. lia.
  - exists i, o, t'. split; [exact A|]. split; [exact B|]. rewrite app_length, rev_length in C. cbn in *. rewrite app_length. split; lia.
Qed.
Lemma in_line_total : forall fuel inn out t, length t < fuel -> length out <= length inn ->
  exists t', in_line fuel inn out t = Some t' /\ length t' <= length inn + length t.
Proof.
  induction fuel as [|fuel IH]; intros inn out t F L; [lia|]. cbn [in_line].
  pose proof (strchr_dollar_cases t) as K. destruct (strchr_dollar t) as [[a b]|].
  2:{ exists (rev out ++ t). split; [reflexivity|]. rewrite app_length, rev_length. lia. }
  destruct K as [-> K]. rewrite app_length in F. cbn in F.
  assert (LL : length (c_dollar :: rev a ++ out) <= length (c_dollar :: rev a ++ inn)) by (cbn; rewrite !app_length; lia).
  assert (PL : exists t', in_line fuel (c_dollar :: rev a ++ inn) (c_dollar :: rev a ++ out) b = Some t' /\ length t' <= length inn + length (a ++ c_dollar :: b)).
  { destruct (IH (c_dollar :: rev a ++ inn) (c_dollar :: rev a ++ out) b) as (t' & A & B); [lia|exact LL|].
    exists t'. split; [exact A|]. cbn in B. rewrite app_length, rev_length in B. rewrite app_length. cbn. lia. }
  destruct b as [|o b']; [exact PL|]. destruct ((o =?c c_lparen) || (o =?c c_lbrace)); [|exact PL].
  destruct (in_ref_total (S (length b')) o (if o =?c c_lparen then c_rparen else c_rbrace) (length (c_dollar :: rev a ++ inn)) (S (length (c_dollar :: rev a ++ out))) 0 (o :: c_dollar :: rev a ++ inn) (o :: c_dollar :: rev a ++ out) b') as (i & x & t' & A & B & C & D); [lia|cbn in *; lia|].
  rewrite A. destruct (IH i x t') as (r & R1 & R2); [cbn in F; lia|exact B|]. exists r. split; [exact R1|].
  cbn in C. rewrite app_length, rev_length in C. rewrite app_length. cbn. lia.
Qed.
