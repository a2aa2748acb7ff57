(** One more option at the end of the words. *)
From Coq Require Import Lia.
From Verif Require Import Base M_Text M_Var M_Expand M_Def M_Flags M_Restart S_Restart P_Restart.
Open Scope string_scope.
Open Scope list_scope.
Open Scope nat_scope.

Section End_.
  Variable D : Type.
  Variable atof : str -> D.
  Variable minus_one : D.
  Variable tilde : str -> option str.
  Notation dstate := (dstate D).
  Notation decode_loop := (decode_loop D atof minus_one tilde false).
  Notation cluster := (cluster D atof minus_one tilde false).
  Notation long_opt := (long_opt D atof minus_one tilde false).
  Notation apply_switch := (apply_switch D atof minus_one tilde false).
  Variable s : str.
  Notation x := (c_minus :: s).

  Lemma apply_app cs arg ws d d' ws' : apply_switch cs arg ws d = Some (d', ws') -> apply_switch cs arg (ws ++ [x]) d = Some (d', ws' ++ [x]).
  Proof.
    unfold M_Flags.apply_switch, bad. cbn [negb orb]. destruct (sw_type cs).
    - intros H. injection H as <- <-. reflexivity.
    - intros H. injection H as <- <-. reflexivity.
    - destruct (match arg with Some a => Some a | None => _ end) as [[| c a]|]; [destruct arg; discriminate| |discriminate]. intros H. injection H as <- <-. reflexivity.
    - destruct (match arg with Some a => Some a | None => _ end) as [[| c a]|]; [destruct arg; discriminate| |discriminate]. intros H. injection H as <- <-. reflexivity.
    - destruct (match arg with Some a => Some a | None => _ end) as [[| c a]|]; [destruct arg; discriminate| |discriminate]. destruct (expand_command_line_file _ _); [|discriminate]. intros H. injection H as <- <-. reflexivity.
    - assert (X : forall a w, (if forallb is_digit a then let i := digits_value a in if (INT_MAX <? i)%Z then None else if (i <? 1)%Z then None else Some (set_d D d (sw_ptr cs) (VInt D i), w) else None) = Some (d', ws') ->
        (if forallb is_digit a then let i := digits_value a in if (INT_MAX <? i)%Z then None else if (i <? 1)%Z then None else Some (set_d D d (sw_ptr cs) (VInt D i), w ++ [x]) else None) = Some (d', ws' ++ [x])).
      { intros a w. destruct (forallb is_digit a); [|discriminate]. cbn zeta. destruct (INT_MAX <? digits_value a)%Z; [discriminate|]. destruct (digits_value a <? 1)%Z; [discriminate|]. intros H. injection H as <- <-. reflexivity. }
      assert (Y : forall w, match sw_noarg cs with c_int z => Some (set_d D d (sw_ptr cs) (VInt D z), w) | _ => None end = Some (d', ws') ->
        match sw_noarg cs with c_int z => Some (set_d D d (sw_ptr cs) (VInt D z), w ++ [x]) | _ => None end = Some (d', ws' ++ [x])).
      { intros w. destruct (sw_noarg cs); try discriminate. intros H. injection H as <- <-. reflexivity. }
      destruct arg as [a|]; [apply X|]. destruct ws as [| w ws]; [exact (Y [])|]. cbn [app]. destruct (forallb is_digit w) eqn:DW; [|exact (Y (w :: ws))]. specialize (X w ws). rewrite DW in X. rewrite ?DW. exact X.
    - destruct arg as [a|]; [intros H; injection H as <- <-; reflexivity|]. destruct ws as [| w ws]; [intros H; injection H as <- <-; reflexivity|]. cbn [app]. destruct w as [| c w]; [intros H; injection H as <- <-; reflexivity|].
      destruct (is_digit c || (c =?c c_dot)); intros H; injection H as <- <-; reflexivity.
    - intros H. injection H as <- <-. reflexivity.
  Qed.
  Lemma cluster_app cs : forall ws d d' ws', cluster cs ws d = Some (d', ws') -> cluster cs (ws ++ [x]) d = Some (d', ws' ++ [x]).
  Proof.
    induction cs as [| c r IH]; intros ws d d' ws' H; cbn [M_Flags.cluster] in *; [injection H as <- <-; reflexivity|]. destruct (find_short c) as [q|]; [|discriminate]. destruct (arg_of q).
    - destruct (apply_switch q None ws d) as [[d1 w1]|] eqn:A; [|discriminate]. rewrite (apply_app _ _ _ _ _ _ A). apply IH, H.
    - destruct r as [| c1 r]; [destruct ws as [| a ws]; [discriminate|]; cbn [app]; apply apply_app, H|apply apply_app, H].
    - destruct r as [| c1 r]; apply apply_app, H.
  Qed.
  Lemma long_app w ws d d' ws' : long_opt w ws d = Some (d', ws') -> long_opt w (ws ++ [x]) d = Some (d', ws' ++ [x]).
  Proof.
    unfold M_Flags.long_opt, bad. destruct (match cut_at c_eq w with Some (n, a) => (n, Some a) | None => (w, None) end) as [n o]. destruct (find_long n) as [[h c]|]; [|discriminate]. destruct (find_switch c) as [q|]; [|discriminate]. destruct h.
    - destruct (apply_switch q None ws d) as [[d1 w1]|] eqn:A; [|discriminate]. rewrite (apply_app _ _ _ _ _ _ A). intros H. injection H as <- <-. reflexivity.
    - destruct o; [apply apply_app|]. destruct ws as [| a ws]; [discriminate|]. cbn [app]. apply apply_app.
    - destruct o; apply apply_app.
  Qed.
  Lemma apply_sub cs arg ws d d' ws' : apply_switch cs arg ws d = Some (d', ws') -> incl ws' ws.
  Proof.
    unfold M_Flags.apply_switch, bad. cbn [negb orb]. destruct (sw_type cs).
    - intros H. injection H as <- <-. apply incl_refl.
    - intros H. injection H as <- <-. apply incl_refl.
    - destruct (match arg with Some a => Some a | None => _ end) as [[| c a]|]; [destruct arg; discriminate| |discriminate]. intros H. injection H as <- <-. apply incl_refl.
    - destruct (match arg with Some a => Some a | None => _ end) as [[| c a]|]; [destruct arg; discriminate| |discriminate]. intros H. injection H as <- <-. apply incl_refl.
    - destruct (match arg with Some a => Some a | None => _ end) as [[| c a]|]; [destruct arg; discriminate| |discriminate]. destruct (expand_command_line_file _ _); [|discriminate]. intros H. injection H as <- <-. apply incl_refl.
    - assert (Z : forall (p : option str * list str), incl (snd p) ws -> (let '(arg0, ws0) := p in match arg0 with Some a => if forallb is_digit a then let i := digits_value a in if (INT_MAX <? i)%Z then None else if (i <? 1)%Z then None else Some (set_d D d (sw_ptr cs) (VInt D i), ws0) else None
                 | None => match sw_noarg cs with c_int z => Some (set_d D d (sw_ptr cs) (VInt D z), ws0) | _ => None end end) = Some (d', ws') -> incl ws' ws).
      { intros [[a|] w] I; cbn [snd] in I; [destruct (forallb is_digit a); [|discriminate]; cbn zeta; destruct (INT_MAX <? digits_value a)%Z; [discriminate|]; destruct (digits_value a <? 1)%Z; [discriminate|]|destruct (sw_noarg cs); try discriminate]; intros H; injection H as <- <-; exact I. }
      apply Z. destruct arg, ws as [| w ws]; try apply incl_refl. destruct (forallb is_digit w); [apply incl_tl, incl_refl|apply incl_refl].
    - destruct arg, ws as [| [| c w] ws]; try (intros H; injection H as <- <-; apply incl_refl). destruct (is_digit c || (c =?c c_dot)); intros H; injection H as <- <-; [apply incl_tl, incl_refl|apply incl_refl].
    - intros H. injection H as <- <-. apply incl_refl.
  Qed.
  Lemma cluster_sub cs : forall ws d d' ws', cluster cs ws d = Some (d', ws') -> incl ws' ws.
  Proof.
    induction cs as [| c r IH]; intros ws d d' ws' H; cbn [M_Flags.cluster] in *; [injection H as <- <-; apply incl_refl|]. destruct (find_short c) as [q|]; [|discriminate]. destruct (arg_of q).
    - destruct (apply_switch q None ws d) as [[d1 w1]|]; [|discriminate]. eapply IH; eauto.
    - destruct r as [| c1 r]; [destruct ws as [| a ws]; [discriminate|]; apply apply_sub in H; apply incl_tl, H|apply apply_sub in H; exact H].
    - destruct r as [| c1 r]; apply apply_sub in H; exact H.
  Qed.
  Lemma long_sub w ws d d' ws' : long_opt w ws d = Some (d', ws') -> incl ws' ws.
  Proof.
    unfold M_Flags.long_opt, bad. destruct (match cut_at c_eq w with Some (n, a) => (n, Some a) | None => (w, None) end) as [n o]. destruct (find_long n) as [[h c]|]; [|discriminate]. destruct (find_switch c) as [q|]; [|discriminate]. destruct h.
    - destruct (apply_switch q None ws d) as [[d1 w1]|]; [|discriminate]. intros H. injection H as <- <-. apply incl_refl.
    - destruct o; [apply apply_sub|]. destruct ws as [| a ws]; [discriminate|]. intros H. apply apply_sub in H. apply incl_tl, H.
    - destruct o; apply apply_sub.
  Qed.
  Lemma decode_end n : forall ws d d1 d2, ~ In (s2l "--") ws -> decode_loop n ws d = Some d1 -> s <> [] -> hd c_minus s <> c_minus -> cluster s [] d1 = Some (d2, []) -> decode_loop (S n) (ws ++ [x]) d = Some d2.
  Proof.
    induction n as [| n IH]; intros ws d d1 d2 N H NE HD C; [discriminate H|]. destruct ws as [| w ws].
    - injection H as <-. cbn [app]. destruct s as [| b r]; [congruence|]. cbn [hd] in HD. cbn [M_Flags.decode_loop]. change (c_minus =?c c_minus) with true. cbn [negb]. destruct (b =?c c_minus) eqn:B; [apply eqc_true in B; congruence|]. unfold str in *. rewrite C. reflexivity.
    - assert (N' : ~ In (s2l "--") ws) by (intros I; apply N; right; exact I). cbn [app]. remember (S n) as n1. cbn [M_Flags.decode_loop] in H |- *. subst n1. cbn [M_Flags.decode_loop] in H. destruct w as [| a [| b r]].
      + apply (IH _ _ d1); auto.
      + apply (IH _ _ d1); auto.
      + destruct (negb (a =?c c_minus)) eqn:A; [apply (IH _ _ d1); auto|]. apply negb_false_iff, eqc_true in A. subst a. destruct (b =?c c_minus) eqn:B.
        * apply eqc_true in B. subst b. destruct r as [| c r]; [destruct N; left; reflexivity|]. destruct (long_opt (c :: r) ws d) as [[d' ws']|] eqn:L; [|discriminate]. rewrite (long_app _ _ _ _ _ L). apply (IH _ _ d1); auto. intros I. apply N'. eapply long_sub; eauto.
        * destruct (cluster (b :: r) ws d) as [[d' ws']|] eqn:L; [|discriminate]. rewrite (cluster_app _ _ _ _ _ L). apply (IH _ _ d1); auto. intros I. apply N'. eapply cluster_sub; eauto.
  Qed.
End End_.
