(** The loop of second expansion. *)
From Coq Require Import Lia.
From Verif Require Import Base M_Text S_Text Properties_Text M_Auto S_Auto P_Auto P_Auto2 Properties_Auto M_Rules S_Rules P_Rules M_Second S_Second P_Second.
Open Scope string_scope.
Open Scope list_scope.
Open Scope nat_scope.

Lemma set_lists_upgrade always z ds v ds' z' : set_lists always z ds = Some (v, ds', z') -> ds' = upgrade ds.
Proof.
  unfold set_lists. repeat match goal with |- context [match ?x with _ => _ end] => destruct x eqn:? end; intros H; inversion H; reflexivity.
Qed.
Lemma text_subst d : (if i_static d then subst_expand (i_name d) "%" "$*" false else Some (i_name d)) = Some (text_of d).
Proof.
  unfold text_of. destruct (i_static d); auto. destruct (C06_subst [c_percent] (s2l "$*") (i_name d)) as (out & H & R & _); [discriminate|]. unfold func_subst in H. rewrite <- (stars_out _ _ R). exact H.
Qed.
Lemma less_app l m : less_value (l ++ m) = match less_value l with [] => if existsb (fun d => negb (a_order d) && negb (a_ignored d)) l then [] else less_value m | v => v end.
Proof.
  induction l as [| d l IH]; [reflexivity|]. cbn [app less_value existsb]. destruct (negb (a_order d) && negb (a_ignored d)); cbn [orb]; [|exact IH]. destruct (a_2nd d); [reflexivity|]. destruct (a_name d); reflexivity.
Qed.

Lemma F2_len {A B} {R : A -> B -> Prop} {l m} : Forall2 R l m -> length l = length m.
Proof. induction 1; cbn; auto. Qed.

Lemma skipn_tl {A} k : forall l : list A, skipn (S k) l = tl (skipn k l).
Proof. induction k as [| k IH]; intros [| x l]; try reflexivity. cbn [skipn]. apply IH. Qed.

Section Loop.
  Variable always : bool.
  Variable suffixes : list str.
  Variable ex : values -> str -> str.
  Variable split : str -> list dep.
  Variable f : file.
  Notation star := (star_value (f_stem f) (f_name f) suffixes).

  Lemma entered d l : proper_item d -> enter_prereqs (i_stem d) l = named (i_stem d) l.
  Proof.
    intros [_ P]. unfold enter_prereqs, named. destruct (i_stem d) as [s|]; auto. f_equal. induction l as [| x l IH]; auto. cbn [flat_map]. rewrite IH, dep_stem_spec; auto.
  Qed.
  Lemma Forall2_app_l {A B} (R : A -> B -> Prop) l1 l2 m : Forall2 R (l1 ++ l2) m -> Forall2 R l1 (firstn (length l1) m) /\ Forall2 R l2 (skipn (length l1) m).
  Proof.
    intros F. apply Forall2_app_inv_l in F. destruct F as (m1 & m2 & F1 & F2 & ->). rewrite (F2_len F1), firstn_app, skipn_app, Nat.sub_diag, firstn_all, skipn_all. cbn. rewrite app_nil_r. auto.
  Qed.

  Lemma loop_spec n : forall stem z bef bn rest rn out' stem' z', length rn = n ->
    Forall2 (raised (normal_in (bef ++ rest))) bef bn -> Forall2 (raised (normal_in (bef ++ rest))) rest rn ->
    Forall proper_item rest -> (stem = f_stem f \/ stem = Some star) ->
    expand_loop always suffixes ex split n f stem z bn rn = Some (out', stem', z') ->
    exists out, expands always suffixes ex split f bef rest out /\ Forall2 (raised (normal_in out)) out out' /\ (stem' = f_stem f \/ stem' = Some star).
  Proof.
    induction n as [| n IH]; intros stem z bef bn rest rn out' stem' z' LEN FB FR PR ST H.
    - destruct rn; [|discriminate]. inversion FR; subst. cbn in H. injection H as <- <- <-. exists bef. rewrite app_nil_r in FB. split; [constructor | auto].
    - destruct rn as [| dn rn]; [discriminate|]. inversion FR as [| d ? rest' ? RD FR']; subst. inversion PR as [| ? ? PD PR']; subst. cbn [expand_loop] in H.
      pose proof RD as (R1 & R2 & R3 & R4 & R5 & R6). rewrite <- R2 in H. destruct (i_2nd d) eqn:PEND.
      + assert (dn = d). { destruct R6 as [R6 | (_ & _ & X & _)]; [|congruence]. destruct d, dn. cbn in *. subst. reflexivity. } subst dn.
        rewrite text_subst in H. set (d' := mkitem (text_of d) (i_order d) true false (i_stem d) (i_extra d)) in *. set (all := bn ++ d' :: rn) in *.
        destruct (set_lists always z (map adep_of all)) as [[[v ds'] z1]|] eqn:SL; [|discriminate].
        set (a := mkvalues (at_value (f_name f)) (percent_value (f_name f)) (star_value (match i_stem d with Some s => Some s | None => stem end) (f_name f) suffixes) (less_value (map adep_of all)) v) in *.
        pose proof (C32_lists _ _ _ _ _ _ SL) as (LP & LC & LB & LQ). apply set_lists_upgrade in SL. subst ds'.
        assert (FALL : Forall2 (low (normal_in (bef ++ d :: rest'))) (map adep_of (bef ++ d :: rest')) (map adep_of all)).
        { unfold all. rewrite !map_app. cbn [map]. apply Forall2_app; [apply raised_all_low, FB|]. constructor; [|apply raised_all_low, FR'].
          unfold low, d', adep_of. cbn. rewrite PEND. do 3 (split; [reflexivity|]). split; [discriminate | auto]. }
        assert (NORM : forall m, normal (map adep_of all) m <-> normal_in (bef ++ d :: rest') m) by (apply (normal_low _ _ _ FALL); auto).
        pose proof (reorder_raised (normal (map adep_of all)) all _ (upgrade_low (map adep_of all)) (fun _ _ => I)) as RE. set (all' := reorder all (upgrade (map adep_of all))) in *.
        unfold all in RE at 2. apply Forall2_app_l in RE. destruct RE as [RB RR]. fold d' in RR.
        set (new := named (i_stem d) (split (ex a (text_of d)))). rewrite entered in H by auto. fold new in H.
        assert (MONO : forall m, normal_in (bef ++ d :: rest') m -> normal_in ((bef ++ new) ++ rest') m).
        { intros m. rewrite !normal_in_iff. intros (x & I & X). exists x. split; auto. rewrite !in_app_iff in *. destruct I as [I | [I | I]]; auto. subst x. destruct X. congruence. }
        assert (SK : skipn (S (length bn)) all' = tl (skipn (length bn) all')).
        { apply skipn_tl. }
        rewrite SK in H. inversion RR as [| ? x ? r1 RX RR' E1 E2]. subst. cbn [tl] in H. rewrite <- E2 in H. cbn [tl] in H.
        apply (IH _ _ (bef ++ new) _ rest') in H; [| | | | auto |].
        * destruct H as (out & EX & RO & SO). exists out. split; [|auto]. apply ex_later with (a := a); auto. unfold has_values.
          split; [reflexivity|]. split; [reflexivity|]. split.
          { unfold a. cbn [t_star]. destruct (i_stem d); [reflexivity|]. destruct ST as [-> | ->]; reflexivity. }
          assert (PLC : forall j, in_caret (map adep_of (bef ++ d :: rest')) j -> exists y, at_place (map adep_of (bef ++ d :: rest')) j y) by (intros j (y & [Y _] & _); eauto).
          assert (PLB : forall j, in_bar (map adep_of (bef ++ d :: rest')) j -> exists y, at_place (map adep_of (bef ++ d :: rest')) j y) by (intros j (y & [Y _] & _); eauto).
          split; [apply (listing_low _ _ FALL (in_caret (map adep_of all))); auto; intros j; apply (caret_low _ _ FALL)|].
          split; [apply (listing_low _ _ FALL (in_bar (map adep_of all))); auto; intros j; apply (bar_low _ _ FALL)|].
          split.
          { apply (listing_low _ _ FALL (in_qmark (map adep_of all) always)); auto; [|intros j [_ X]; auto]. intros j. rewrite <- (caret_low _ _ FALL j). unfold in_qmark, in_caret. split.
            - intros (y & A & N & [C|C]); [|eauto]. exfalso. destruct A as [[Y _] _]. apply nth_error_In in Y. apply in_map_iff in Y. destruct Y as (i & <- & _). discriminate C.
            - intros (C & y & A & N). eauto 6. }
          exists bn, rn. split; auto. split; auto. split.
          { cbn zeta. unfold a. cbn [t_lists]. change seen with adep_of.
            assert (F3 : Forall2 (low (normal (map adep_of (bn ++ d :: rn)))) (map adep_of (bn ++ d :: rn)) (map adep_of all)).
            { unfold all. rewrite !map_app. cbn [map]. apply Forall2_app; [apply low_all_refl|]. constructor; [|apply low_all_refl]. unfold low, d', adep_of. cbn. rewrite PEND. do 3 (split; [reflexivity|]). split; [discriminate | auto]. }
            apply (listing_low _ _ F3 (in_plus (map adep_of all))); auto; [|intros j (y & Y & _); eauto]. intros j. unfold in_plus, at_place, all. rewrite !map_app. cbn [map].
            destruct (Nat.lt_ge_cases j (length (map adep_of bn))) as [J|J].
            - rewrite !nth_error_app1 by auto. tauto.
            - rewrite !nth_error_app2 by auto. destruct (j - length (map adep_of bn)); cbn [nth_error]; [|tauto]. unfold d', adep_of. cbn. rewrite PEND. split; intros (y & (Y & Z & _) & _); injection Y as <-; discriminate Z. }
          { unfold a. cbn [t_less]. change seen with adep_of. unfold all. rewrite map_app, less_app. cbn [map less_value]. destruct PD as [PD _]. destruct (PD PEND) as [P1 P2]. unfold d', adep_of at 3 4 5. cbn. rewrite P1, P2. cbn.
            destruct (less_value (map adep_of bn)); auto. destruct (existsb _ _); auto. }
        * apply F2_len in RR'. cbn in LEN. lia.
        * apply Forall2_app; [|apply raised_all_refl].
          apply (Forall2_comp (raised (normal_in ((bef ++ new) ++ rest'))) (raised (normal (map adep_of all))) _ bef bn); auto.
          -- intros x0 y0 z0. apply raised_trans. intros m M. apply MONO, NORM, M.
          -- eapply Forall2_imp; [|exact FB]. intros x0 y0. apply raised_mono. exact MONO.
        * apply (Forall2_comp (raised (normal_in ((bef ++ new) ++ rest'))) (raised (normal (map adep_of all))) _ rest' rn); auto.
          -- intros x0 y0 z0. apply raised_trans. intros m M. apply MONO, NORM, M.
          -- eapply Forall2_imp; [|exact FR']. intros x0 y0. apply raised_mono. exact MONO.
        * destruct (i_stem d); auto. right. f_equal. destruct ST as [-> | ->]; reflexivity.
      + assert (E : bef ++ d :: rest' = (bef ++ [d]) ++ rest') by (rewrite <- app_assoc; reflexivity). rewrite E in *.
        assert (L' : length rn = n) by (cbn in LEN; lia).
        assert (FB' : Forall2 (raised (normal_in ((bef ++ [d]) ++ rest'))) (bef ++ [d]) (bn ++ [dn])) by (apply Forall2_app; auto).
        destruct (IH _ _ _ _ _ _ _ _ _ L' FB' FR' PR' ST H) as (out & EX & RO & SO). exists out. split; [apply ex_plain; auto | auto].
  Qed.

  Lemma loop_total n : forall stem z bn rn, exists r, expand_loop always suffixes ex split n f stem z bn rn = Some r.
  Proof.
    induction n as [| n IH]; intros stem z bn rn; cbn [expand_loop]; [eauto|]. destruct rn as [| d rn]; [eauto|]. destruct (i_2nd d); [|apply IH]. rewrite text_subst.
    match goal with |- context [set_lists ?a ?b ?c] => destruct (set_lists a b c) as [[[v ds'] z1]|] eqn:SL end; [apply IH|]. exfalso. revert SL. apply C32_memory. right. intros j k x y (X & _) (Y & _) _.
    apply nth_error_In in X, Y. apply in_map_iff in X, Y. destruct X as (? & <- & _), Y as (? & <- & _). reflexivity.
  Qed.
End Loop.
