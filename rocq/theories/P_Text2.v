From Verif Require Import Base M_Hash M_Quote S_Quote P_Quote M_Text S_Text P_Text.

(** ** Decimal output *)
Lemma show_loop_val : forall fuel n acc, n < fuel ->
  fold_left (fun a c => a * 10 + (Z.of_nat (nat_of_ascii c) - 48))%Z (show_loop fuel n acc) 0%Z =
  fold_left (fun a c => a * 10 + (Z.of_nat (nat_of_ascii c) - 48))%Z acc (Z.of_nat n).
Proof.
  induction fuel as [|k IH]; intros n acc H; [lia|]. cbn [show_loop].
  pose proof (Nat.mod_upper_bound n 10 ltac:(lia)) as Hm.
  pose proof (Nat.div_mod n 10 ltac:(lia)) as Hd.
  assert (Ev : (Z.of_nat (nat_of_ascii (ascii_of_nat (48 + n mod 10))) - 48 = Z.of_nat (n mod 10))%Z).
  { rewrite nat_ascii_embedding by lia. lia. }
  destruct (Nat.eqb_spec (n / 10) 0) as [E|E].
  - cbn [fold_left]. rewrite Ev. f_equal. lia.
  - rewrite IH by (assert (n / 10 < n) by (apply Nat.div_lt; lia); lia).
    cbn [fold_left]. rewrite Ev. f_equal. lia.
Qed.

Lemma show_loop_digits : forall fuel n acc, Forall is_dig acc -> Forall is_dig (show_loop fuel n acc).
Proof.
  induction fuel as [|k IH]; intros n acc H; [exact H|]. cbn [show_loop].
  assert (Hd : Forall is_dig (ascii_of_nat (48 + n mod 10) :: acc)).
  { constructor; [|exact H]. unfold is_dig.
    pose proof (Nat.mod_upper_bound n 10 ltac:(lia)). rewrite nat_ascii_embedding by lia. lia. }
  destruct (n / 10 =? 0); [exact Hd|]. apply IH. exact Hd.
Qed.

Lemma show_loop_ne : forall fuel n acc, acc <> [] -> show_loop fuel n acc <> [].
Proof.
  induction fuel as [|k IH]; intros n acc H; [exact H|]. cbn [show_loop].
  destruct (n / 10 =? 0); [discriminate|]. apply IH. discriminate.
Qed.

Lemma show_numeral : forall n, numeral (show_nat n) (Z.of_nat n).
Proof.
  intros n. exists [], (show_nat n), []. unfold show_nat. rewrite app_nil_r. repeat split.
  - intros c [].
  - intros c [].
  - cbn [show_loop]. destruct (n / 10 =? 0); [discriminate|]. apply show_loop_ne. discriminate.
  - apply show_loop_digits. constructor.
  - unfold dec_value. rewrite show_loop_val by lia. reflexivity.
Qed.

Lemma func_words_spec : forall a, exists n, func_words a = Some n /\
  numeral n (Z.of_nat (length (words a))).
Proof.
  intros a. exists (show_nat (length (words a))). split; [|apply show_numeral].
  unfold func_words. rewrite count_words_spec. reflexivity.
Qed.

(** ** strstr *)
Lemma prefixb_spec : forall p s, prefixb p s = true <-> exists q, s = p ++ q.
Proof.
  induction p as [|x p IH]; intros s; simpl.
  - split; [intros _; exists s; reflexivity|reflexivity].
  - destruct s as [|y s].
    + split; [discriminate|]. intros [q E]. discriminate.
    + rewrite andb_true_iff, IH. split.
      * intros [E [q ->]]. apply eqc_true in E. subst. exists q. reflexivity.
      * intros [q E]. inversion E; subst. split; [apply eqc_refl|]. exists q. reflexivity.
Qed.

Lemma strstr_none : forall hay f, strstr hay f = None -> ~ occurs f hay.
Proof.
  induction hay as [|c hay IH]; intros f H [p [q E]]; simpl in H;
    destruct (prefixb f _) eqn:Ep in H; try discriminate.
  - symmetry in E. apply app_eq_nil in E. destruct E as [-> E]. apply app_eq_nil in E.
    destruct E as [-> ->]. simpl in Ep. discriminate.
  - destruct (strstr hay f) as [[b r]|] eqn:Es; [discriminate|].
    destruct p as [|d p].
    + simpl in E. assert (prefixb f (c :: hay) = true) by (apply prefixb_spec; exists q; exact E). congruence.
    + inversion E; subst. apply (IH f Es). exists p, q. reflexivity.
Qed.

Lemma strstr_some : forall hay f b r, strstr hay f = Some (b, r) ->
  hay = b ++ r /\ (exists q, r = f ++ q) /\
  (forall p q, hay = p ++ f ++ q -> length b <= length p).
Proof.
  induction hay as [|c hay IH]; intros f b r H; simpl in H.
  - destruct (prefixb f []) eqn:Ep; [|discriminate]. inversion H; subst.
    apply prefixb_spec in Ep. split; [reflexivity|]. split; [exact Ep|]. intros. simpl. lia.
  - destruct (prefixb f (c :: hay)) eqn:Ep.
    + inversion H; subst. apply prefixb_spec in Ep. split; [reflexivity|]. split; [exact Ep|].
      intros. simpl. lia.
    + destruct (strstr hay f) as [[b' r']|] eqn:Es; [|discriminate]. inversion H; subst.
      destruct (IH f b' r Es) as [H1 [H2 H3]]. split; [simpl; rewrite <- H1; reflexivity|].
      split; [exact H2|]. intros p q E. destruct p as [|d p].
      * exfalso. simpl in E. assert (prefixb f (c :: hay) = true) by (apply prefixb_spec; exists q; exact E). congruence.
      * inversion E as [[Ed Et]]. simpl. apply le_n_S. eapply H3. exact Et.
Qed.

Lemma strstr_complete : forall hay f, occurs f hay -> exists b q, strstr hay f = Some (b, f ++ q).
Proof.
  intros hay f H. destruct (strstr hay f) as [[b r]|] eqn:E.
  - destruct (strstr_some _ _ _ _ E) as [_ [[q ->] _]]. exists b, q. reflexivity.
  - exfalso. exact (strstr_none _ _ E H).
Qed.

Lemma skipn_app_exact : forall (B : Type) (f q : list B), skipn (length f) (f ++ q) = q.
Proof. intros B f q. rewrite skipn_app, skipn_all, Nat.sub_diag. reflexivity. Qed.

Lemma not_occurs_nil : forall f, f <> [] -> ~ occurs f [].
Proof.
  intros f Hf [p [q E]]. symmetry in E. apply app_eq_nil in E. destruct E as [_ E].
  apply app_eq_nil in E. destruct E. contradiction.
Qed.

(** ** subst *)
Lemma subst_loop_rel : forall f t, f <> [] -> forall fuel x o prev, length x < fuel ->
  exists out, subst_loop false f t fuel o prev x = Some (o ++ out) /\ subst_rel f t x out.
Proof.
  intros f t Hf. induction fuel as [|k IH]; intros x o prev H; [lia|].
  cbn [subst_loop andb]. destruct (strstr x f) as [[b r]|] eqn:E.
  - destruct (strstr_some _ _ _ _ E) as [H1 [[q ->] H3]]. rewrite skipn_app_exact.
    destruct q as [|c q].
    + exists (b ++ t). split; [rewrite ?app_nil_r; reflexivity|].
      rewrite H1. rewrite <- (app_nil_r (b ++ t)), <- app_assoc. apply sr_hit.
      * intros p q' E'. apply H3 with q'. rewrite H1. exact E'.
      * apply sr_none. apply not_occurs_nil. exact Hf.
    + destruct (IH (c :: q) (o ++ b ++ t) (last_of f (last_of b prev))) as [out [R1 R2]].
      { rewrite H1, !app_length in H. destruct f; [contradiction|]. simpl in *. lia. }
      exists (b ++ t ++ out). split; [rewrite R1, <- !app_assoc; reflexivity|].
      rewrite H1. apply sr_hit; [|exact R2]. intros p q' E'. apply H3 with q'. rewrite H1. exact E'.
  - exists x. split; [reflexivity|]. apply sr_none. apply strstr_none. exact E.
Qed.

Lemma func_subst_rel : forall f t x, f <> [] ->
  exists out, func_subst f t x = Some out /\ subst_rel f t x out.
Proof.
  intros f t x Hf. unfold func_subst, subst_expand.
  destruct (length f =? 0) eqn:E; [apply Nat.eqb_eq in E; destruct f; [contradiction|discriminate]|].
  cbn [andb]. destruct (subst_loop_rel f t Hf (S (length x)) x [] None) as [out [R1 R2]]; [lia|].
  exists out. split; assumption.
Qed.

Lemma app_eq_split : forall (B : Type) (a b c d : list B), a ++ b = c ++ d -> length a = length c ->
  a = c /\ b = d.
Proof.
  intros B. induction a as [|x a IH]; intros b c d E L; destruct c as [|y c]; simpl in *; try lia.
  - split; [reflexivity|exact E].
  - inversion E; subst. destruct (IH b c d) as [-> ->]; auto.
Qed.

Lemma subst_rel_fun : forall f t x y1, subst_rel f t x y1 -> forall y2, subst_rel f t x y2 -> y1 = y2.
Proof.
  intros f t x y1 H. induction H as [x Hn|pre post out Hm Hr IH]; intros y2 H2.
  - inversion H2; subst; [reflexivity|]. exfalso. apply Hn. exists pre, post. reflexivity.
  - inversion H2 as [x Hn E1|pre2 post2 out2 Hm2 Hr2 E1]; subst.
    + exfalso. apply Hn. exists pre, post. reflexivity.
    + assert (L : length pre = length pre2).
      { pose proof (Hm pre2 post2 (eq_sym E1)). pose proof (Hm2 pre post E1). lia. }
      destruct (app_eq_split _ _ _ _ _ E1 (eq_sym L)) as [-> E2].
      apply app_inv_head in E2. subst post2. rewrite (IH out2 Hr2). reflexivity.
Qed.

Lemma subst_rel_same : forall f x y, subst_rel f f x y -> y = x.
Proof. intros f x y H. induction H; congruence. Qed.

Lemma subst_rel_absent : forall f t x y, ~ occurs f x -> subst_rel f t x y -> y = x.
Proof.
  intros f t x y Hn H. destruct H; [reflexivity|]. exfalso. apply Hn. exists pre, post. reflexivity.
Qed.

(** ** subst by word *)
Section ByWord.
  Variable f : str -> str.
  Definition fin (mid : bool) (cur : str) : str :=
    if mid then cur else match cur with [] => [] | _ => f cur end.
  Fixpoint kf (mid : bool) (cur s : str) : str :=
    match s with
    | [] => fin mid cur
    | c :: s' => if isspace c then fin mid cur ++ c :: kf false [] s' else kf mid (cur ++ [c]) s'
    end.

  Lemma kf_word : forall w mid cur r, no_space w -> kf mid cur (w ++ r) = kf mid (cur ++ w) r.
  Proof.
    induction w as [|c w IH]; intros mid cur r H; simpl; [rewrite app_nil_r; reflexivity|].
    rewrite (H c) by (left; reflexivity). rewrite IH by (intros d Hd; apply H; right; exact Hd).
    rewrite <- app_assoc. reflexivity.
  Qed.

  Lemma kf_start : forall mid cur r, starts_space r -> kf mid cur r = fin mid cur ++ kf false [] r.
  Proof.
    intros mid cur [|c r] H; simpl in *; [rewrite app_nil_r; reflexivity|]. rewrite H. reflexivity.
  Qed.

  Lemma kf_spaces : forall sp r, all_space sp -> kf false [] (sp ++ r) = sp ++ kf false [] r.
  Proof.
    induction sp as [|c sp IH]; intros r H; [reflexivity|]. simpl.
    rewrite (H c) by (left; reflexivity). simpl. rewrite IH; [reflexivity|].
    intros d Hd. apply H. right. exact Hd.
  Qed.

  Lemma kf_keep : forall R : str -> str -> Prop, (forall w, w <> [] -> no_space w -> R w (f w)) -> forall x,
    keep_subst R x (kf false [] x).
  Proof.
    intros R HR x. remember (length x) as n eqn:En. revert x En.
    induction n as [n IH] using lt_wf_ind. intros x En.
    destruct (find_next_token x) as [[w r]|] eqn:E.
    - pose proof (fnt_len _ _ _ E) as L.
      destruct (fnt_some _ _ _ E) as [sp [H1 [H2 [H3 [H4 [H5 _]]]]]]. rewrite H2.
      rewrite kf_spaces by exact H1. rewrite kf_word by exact H4. simpl ([] ++ w).
      rewrite kf_start by exact H5. unfold fin. destruct w as [|c w]; [contradiction|].
      apply ks_word; auto. apply (IH (length r)); [lia|reflexivity].
    - pose proof (fnt_none _ E) as A. rewrite <- (app_nil_r x) at 2. rewrite kf_spaces by exact A.
      simpl. rewrite app_nil_r. apply ks_end. exact A.
  Qed.
End ByWord.

Section Literal.
  Variable sub rep : str.
  Hypothesis Hne : sub <> [].
  Hypothesis Hns : no_space sub.
  Definition lit_f (w : str) : str := if str_eqb w sub then rep else w.
  Definition midp (prev : option ascii) : bool :=
    match prev with Some c => negb (isspace c) | None => false end.

  Lemma lit_f_neq : forall w, w <> sub -> lit_f w = w.
  Proof. intros w H. unfold lit_f. apply str_eqb_neq in H. rewrite H. reflexivity. Qed.

  Lemma fin_neq : forall mid cur, (mid = false -> cur <> sub) -> fin lit_f mid cur = cur.
  Proof.
    intros mid cur H. unfold fin. destruct mid; [reflexivity|]. destruct cur; [reflexivity|].
    apply lit_f_neq. apply H. reflexivity.
  Qed.

  (** Copying [before] when no occurrence starts in it. *)
  Lemma kf_before : forall before mid cur z,
    (forall p q, cur ++ before ++ z = p ++ sub ++ q -> length (cur ++ before) <= length p) ->
    no_space cur ->
    exists E cur2 mid2, kf lit_f mid cur (before ++ z) = E ++ kf lit_f mid2 cur2 z /\
      E ++ cur2 = cur ++ before /\ no_space cur2 /\
      (cur2 = [] -> (before = [] /\ mid2 = mid) \/ (exists c b', before = b' ++ [c] /\ isspace c = true /\ mid2 = false)) /\
      (mid2 = false \/ mid2 = mid /\ cur2 = cur ++ before /\ E = []) /\
      (no_space before -> mid2 = mid /\ cur2 = cur ++ before).
  Proof.
    induction before as [|c before IH]; intros mid cur z Hm Hcur.
    - exists [], cur, mid. simpl. rewrite app_nil_r. repeat split; auto.
    - simpl. destruct (isspace c) eqn:Ec.
      + assert (Hf : fin lit_f mid cur = cur).
        { apply fin_neq. intros _ ->.
          specialize (Hm [] ((c :: before) ++ z) eq_refl). rewrite app_length in Hm. simpl in Hm. lia. }
        rewrite Hf.
        destruct (IH false [] z) as [E [cur2 [mid2 [K1 [K2 [K3 [K4 [K5 K6]]]]]]]].
        * intros p q Epq. specialize (Hm (cur ++ c :: p) q).
          simpl in Epq. simpl in Hm. rewrite Epq in Hm. rewrite <- app_assoc in Hm. simpl in Hm.
          specialize (Hm eq_refl). rewrite !app_length in Hm. simpl in *. lia.
        * intros d [].
        * exists (cur ++ c :: E), cur2, mid2. rewrite K1, <- !app_assoc. simpl.
          split; [reflexivity|]. split; [rewrite K2; reflexivity|]. split; [exact K3|].
          split; [|split].
          -- intros Ez. right. destruct (K4 Ez) as [[-> ->]|[d [b' [-> [Hd ->]]]]].
             ++ exists c, []. repeat split; auto.
             ++ exists d, (c :: b'). repeat split; auto.
          -- left. destruct K5 as [->|[-> _]]; reflexivity.
          -- intros Hno. specialize (Hno c (or_introl eq_refl)). congruence.
      + destruct (IH mid (cur ++ [c]) z) as [E [cur2 [mid2 [K1 [K2 [K3 [K4 [K5 K6]]]]]]]].
        * intros p q Epq. rewrite <- app_assoc in Epq. simpl in Epq. specialize (Hm p q Epq).
          rewrite !app_length in *. simpl in *. lia.
        * intros d Hd. apply in_app_or in Hd. destruct Hd as [Hd|[<-|[]]]; auto.
        * exists E, cur2, mid2. split; [exact K1|]. split; [rewrite K2, <- app_assoc; reflexivity|].
          split; [exact K3|]. split; [|split].
          -- intros Ez. destruct (K4 Ez) as [[-> ->]|[d [b' [-> [Hd ->]]]]].
             ++ exfalso. destruct (K6 ltac:(intros d [])) as [_ K7]. subst cur2.
                rewrite app_nil_r in K7. destruct cur; discriminate.
             ++ right. exists d, (c :: b'). repeat split; auto.
          -- destruct K5 as [K5|[K5 [K7 K8]]]; [left; exact K5|right].
             rewrite K7, <- app_assoc. auto.
          -- intros Hno. destruct (K6 ltac:(intros d Hd; apply Hno; right; exact Hd)) as [K7 K8].
             rewrite K7, K8, <- app_assoc. auto.
  Qed.

  Lemma kf_absent : forall s mid cur, ~ occurs sub (cur ++ s) -> kf lit_f mid cur s = cur ++ s.
  Proof.
    induction s as [|c s IH]; intros mid cur H; simpl.
    - rewrite app_nil_r in *. apply fin_neq. intros _ ->. apply H. exists [], []. rewrite app_nil_r. reflexivity.
    - destruct (isspace c).
      + rewrite fin_neq.
        * rewrite (IH false []); [reflexivity|]. intros [p [q E]]. apply H. exists (cur ++ c :: p), q.
          simpl in E. rewrite E, <- app_assoc. reflexivity.
        * intros _ ->. apply H. exists [], (c :: s). reflexivity.
      + rewrite IH; [rewrite <- app_assoc; reflexivity|]. rewrite <- app_assoc. exact H.
  Qed.

  (** A word that already is longer than [sub] is kept. *)
  Lemma kf_long : forall s mid cur, (mid = false -> length sub < length cur) ->
    kf lit_f mid cur s = cur ++ kf lit_f true [] s.
  Proof.
    intros s mid cur H.
    assert (G : forall s mid cur x, (mid = false -> length sub < length (x ++ cur)) ->
      kf lit_f mid (x ++ cur) s = x ++ kf lit_f true cur s).
    { clear s mid cur H. induction s as [|c s IH]; intros mid cur x H; simpl.
      - rewrite fin_neq; [reflexivity|]. intros E Ecs. specialize (H E). rewrite Ecs in H. lia.
      - destruct (isspace c).
        + rewrite fin_neq; [rewrite <- app_assoc; reflexivity|]. intros E Ecs. specialize (H E). rewrite Ecs in H. lia.
        + rewrite <- app_assoc. apply IH. intros E. specialize (H E). rewrite !app_length in *. simpl. lia. }
    rewrite <- (app_nil_r cur) at 1. apply G. rewrite app_nil_r. exact H.
  Qed.

  Lemma fin_sub : fin lit_f false sub = rep.
  Proof.
    unfold fin, lit_f. rewrite str_eqb_refl. destruct sub; [contradiction|reflexivity].
  Qed.

  Lemma last_of_sub : forall d, midp (last_of sub d) = true.
  Proof.
    intros d. unfold last_of. destruct (rev sub) as [|c l] eqn:E.
    - exfalso. apply Hne. rewrite <- (rev_involutive sub), E. reflexivity.
    - simpl. rewrite (Hns c); [reflexivity|]. apply in_rev. rewrite E. left. reflexivity.
  Qed.

  Lemma subst_loop_word : forall fuel x o prev, length x < fuel ->
    subst_loop true sub rep fuel o prev x = Some (o ++ kf lit_f (midp prev) [] x).
  Proof.
    induction fuel as [|k IH]; intros x o prev H; [lia|]. cbn [subst_loop].
    assert (L0 : (length sub =? 0) = false).
    { destruct sub; [contradiction|reflexivity]. }
    rewrite L0. cbn [andb]. destruct (strstr x sub) as [[b r]|] eqn:E.
    - destruct (strstr_some _ _ _ _ E) as [H1 [[q ->] H3]]. rewrite skipn_app_exact. subst x.
      destruct (kf_before b (midp prev) [] (sub ++ q)) as [E1 [cur2 [mid2 [K1 [K2 [K3 [K4 [K5 K6]]]]]]]].
      { simpl. intros p q' Epq. eapply H3. exact Epq. }
      { intros d []. }
      rewrite K1. rewrite kf_word by exact Hns. simpl ([] ++ b) in K2.
      (* what the loop outputs for this occurrence *)
      set (pm1 := last_of b prev).
      set (struck := (match pm1 with Some c => negb (isspace c) | None => false end)
                     || match q with c :: _ => negb (isspace c) | [] => false end).
      assert (G : E1 ++ kf lit_f mid2 (cur2 ++ sub) q
                  = (b ++ (if struck then sub else rep)) ++ kf lit_f true [] q).
      { assert (Hpm : (cur2 = [] /\ mid2 = false -> midp pm1 = false) /\
                      (cur2 <> [] \/ mid2 = true -> midp pm1 = true)).
        { split.
          - intros [Ez Em]. destruct (K4 Ez) as [[-> Em2]|[c [b' [-> [Hc _]]]]].
            + unfold pm1. simpl. unfold last_of. simpl. congruence.
            + unfold pm1, last_of. rewrite rev_app_distr. simpl. rewrite Hc. reflexivity.
          - intros Hor. destruct cur2 as [|c0 cl] eqn:Ecur.
            + destruct Hor as [Hor|Hor]; [contradiction|].
              destruct (K4 eq_refl) as [[-> Em2]|[c [b' [-> [Hc Em2]]]]]; [|congruence].
              unfold pm1, last_of. simpl. congruence.
            + unfold pm1, last_of. rewrite <- K2, rev_app_distr.
              destruct (rev (c0 :: cl)) as [|c l] eqn:Er.
              * exfalso. assert (c0 :: cl = []) by (rewrite <- (rev_involutive (c0 :: cl)), Er; reflexivity).
                discriminate.
              * simpl. rewrite (K3 c); [reflexivity|]. apply in_rev. rewrite Er. left. reflexivity. }
        destruct Hpm as [Hp1 Hp2].
        fold (midp pm1) in struck.
        destruct (cur2) as [|c0 cl] eqn:Ecur.
        - rewrite app_nil_r in K2. subst E1. simpl ([] ++ sub). destruct mid2.
          + rewrite kf_long by discriminate.
            assert (Es : struck = true) by (unfold struck; rewrite (Hp2 (or_intror eq_refl)); reflexivity).
            rewrite Es, <- !app_assoc. reflexivity.
          + assert (Em : midp pm1 = false) by (apply Hp1; split; reflexivity).
            unfold struck. rewrite Em. cbn [orb]. destruct q as [|c q].
            * cbn [kf]. rewrite fin_sub. cbn [fin]. rewrite app_nil_r. reflexivity.
            * destruct (isspace c) eqn:Ec; cbn [negb].
              -- rewrite kf_start by exact Ec. rewrite fin_sub. cbn [kf]. rewrite Ec. cbn [fin app].
                 rewrite <- app_assoc. reflexivity.
              -- cbn [kf]. rewrite Ec.
                 rewrite kf_long by (intros _; rewrite app_length; simpl; lia).
                 rewrite (kf_long q true ([] ++ [c])) by discriminate.
                 rewrite <- !app_assoc. reflexivity.
        - assert (Es : struck = true).
          { unfold struck. rewrite Hp2; [reflexivity|]. left. discriminate. }
          rewrite Es. rewrite kf_long by (intros _; rewrite app_length; simpl; lia).
          rewrite <- K2, <- !app_assoc. reflexivity. }
      fold pm1. fold struck. destruct q as [|c q].
      + f_equal. rewrite G. simpl. rewrite app_nil_r. reflexivity.
      + rewrite IH.
        * rewrite last_of_sub. rewrite G. rewrite <- !app_assoc. reflexivity.
        * rewrite !app_length in H. destruct sub; [contradiction|]. simpl in *. lia.
    - rewrite kf_absent; [reflexivity|]. apply strstr_none. exact E.
  Qed.
End Literal.

Lemma subst_expand_word : forall text sub rep, sub <> [] -> no_space sub ->
  subst_expand text sub rep true = Some (kf (lit_f sub rep) false [] text).
Proof.
  intros text sub rep H1 H2. unfold subst_expand. rewrite andb_false_r.
  rewrite subst_loop_word by (auto; lia). reflexivity.
Qed.
