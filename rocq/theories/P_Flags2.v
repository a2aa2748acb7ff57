From Verif Require Import Base M_Text S_Text P_Text P_Text2 M_Var M_Expand S_Expand P_Expand M_Def P_Def M_Flags S_Flags P_Flags.
Open Scope string_scope.
Open Scope list_scope.
Open Scope nat_scope.

(** An entry as one word of the child's command line. *)
Definition flag_word (x : switch * option str) : str :=
  let '(cs, arg) := x in
  c_minus :: (if short_option (sw_c cs) then [ascii_of_nat (sw_c cs)] else c_minus :: s2l (sw_long cs)) ++
  match arg with Some (a :: r) => (if short_option (sw_c cs) then [] else [c_eq]) ++ a :: r | _ => [] end.

Definition known (cs : switch) : Prop := In cs switches /\ sw_toenv cs = true.
Lemma known_named : forall cs, known cs -> named cs.
Proof. intros cs [H _]. pose proof table_named as T. rewrite Forall_forall in T. exact (T cs H). Qed.

Lemma dd_plain : forall s, ~ In c_dollar s -> double_dollars s = s.
Proof. exact double_plain. Qed.

Lemma flag_text_word : forall x, known (fst x) -> flag_text x = double_dollars (c_sp :: bq (flag_word x)).
Proof.
  intros [cs arg] K. pose proof (known_named _ K) as N. destruct (N (proj2 K)) as (_ & NS & NL). cbn [fst] in *.
  unfold flag_text, flag_word.
  assert (P : forall o a, forallb easy o = true -> ~ In c_dollar o ->
            c_sp :: c_minus :: o ++ quote_for_env a = double_dollars (c_sp :: bq (c_minus :: o ++ a))).
  { intros o a H1 H2. rewrite quote_dd. change (c_minus :: o ++ a) with ((c_minus :: o) ++ a). rewrite bq_app, (bq_easy (c_minus :: o)) by exact H1.
    change (c_sp :: (c_minus :: o) ++ bq a) with ((c_sp :: c_minus :: o) ++ bq a). rewrite dd_app. cbn [app]. f_equal.
    rewrite (dd_plain (c_sp :: c_minus :: o)); [reflexivity|]. intros [E|[E|E]]; [discriminate..|contradiction]. }
  destruct (short_option (sw_c cs)) eqn:S.
  - destruct (NS eq_refl) as (_ & _ & E & _ & _ & Dn).
    assert (P1 := fun a => P [ascii_of_nat (sw_c cs)] a ltac:(cbn; rewrite E; reflexivity) ltac:(intros [J|[]]; congruence)).
    destruct arg as [[|a r]|]; [exact (P1 [])|exact (P1 (a :: r))|exact (P1 [])].
  - destruct (NL eq_refl) as (_ & _ & _ & _ & E & Dn). apply eqc_in in Dn.
    assert (P1 := fun a => P (c_minus :: s2l (sw_long cs)) a ltac:(cbn [forallb]; exact E) ltac:(intros [J|J]; [discriminate|contradiction])).
    destruct arg as [[|a r]|]; [exact (P1 [])| |exact (P1 [])].
    pose proof (P (c_minus :: s2l (sw_long cs) ++ [c_eq]) (a :: r)) as P2. cbn [app]. cbn [app] in P2. rewrite <- !app_assoc in P2. apply P2.
    + cbn [forallb]. rewrite forallb_app, E. reflexivity.
    + intros [J|J]; [discriminate|]. apply in_app_or in J. destruct J as [J|[J|[]]]; [contradiction|discriminate].
Qed.
Lemma flags_text_body : forall l, (forall x, In x l -> known (fst x)) ->
  concat (map flag_text l) = double_dollars (body (map flag_word l)).
Proof.
  induction l as [|x l IH]; intros H; [reflexivity|]. unfold body. cbn [map concat]. fold (body (map flag_word l)).
  rewrite dd_app, <- IH by (intros; apply H; right; assumption). f_equal. apply flag_text_word. apply H. left. reflexivity.
Qed.

Lemma group_spec : forall l g r, simple_group l = (g, r) ->
  exists l1, l = l1 ++ r /\ g = map (fun x => ascii_of_nat (sw_c (fst x))) l1 /\
    forall x, In x l1 -> short_option (sw_c (fst x)) = true /\ snd x = None.
Proof.
  induction l as [|[cs [a|]] l IH]; intros g r H; cbn [simple_group] in H.
  - inversion H; subst. exists []. split; [reflexivity|]. split; [reflexivity|]. intros x [].
  - inversion H; subst. exists []. split; [reflexivity|]. split; [reflexivity|]. intros x [].
  - destruct (short_option (sw_c cs)) eqn:S.
    + destruct (simple_group l) as [a r'] eqn:E. inversion H; subst. destruct (IH a r eq_refl) as (l1 & -> & -> & H3).
      exists ((cs, None) :: l1). split; [reflexivity|]. split; [reflexivity|]. intros x [<-|Hx]; [auto|apply H3; exact Hx].
    + inversion H; subst. exists []. split; [reflexivity|]. split; [reflexivity|]. intros x [].
Qed.

Lemma cut_none : forall a s, ~ In a s -> cut_at a s = None.
Proof. intros a s H. rewrite <- (app_nil_r s), cut_at_prefix by exact H. reflexivity. Qed.

Section Fl.
  Variable D : Type.
  Variable fmt_g : D -> str.
  Variable atof : str -> D.
  Variable deqb : D -> D -> bool.
  Variable minus_one : D.
  Variable tilde : str -> option str.
  Notation ostate := (ostate D).
  Notation dstate := (dstate D).
  Notation flag_list := (flag_list D fmt_g deqb minus_one true false).

  Lemma flags_of_fst : forall st cs x, In x (flags_of D fmt_g deqb minus_one true st cs) -> fst x = cs.
  Proof.
    intros st cs x H. unfold flags_of in H.
    destruct (sw_type cs);
      repeat match type of H with
        | In _ (if ?b then _ else _) => destruct b
        | In _ (match ?o with Some _ => _ | None => _ end) => destruct o
        end; try (destruct H as [<-|[]]; reflexivity); try (destruct H; fail);
      apply in_map_iff in H; destruct H as [s [<- _]]; reflexivity.
  Qed.
  Lemma flag_list_known : forall st x, In x (flag_list st) -> known (fst x).
  Proof.
    intros st x H. unfold M_Flags.flag_list in H. apply in_flat_map in H. destruct H as [cs [H1 H2]].
    destruct (sw_toenv cs) eqn:T; cbn [andb orb negb] in H2; [|destruct H2]. apply flags_of_fst in H2. subst cs. split; assumption.
  Qed.

  (** The value of MAKEFLAGS in terms of words. *)
  Lemma makeflags_text : forall st posix over g r, simple_group (flag_list st) = (g, r) ->
    makeflags D fmt_g deqb minus_one true false posix over st =
    double_dollars (g ++ body (map flag_word r)) ++
    (if is_nil (as_list D (st "eval_strings")) then [] else s2l " $(-*-eval-flags-*-)") ++
    (if over then s2l (if posix then " -- $(-*-command-variables-*-)" else " -- $(MAKEOVERRIDES)") else []).
  Proof.
    intros st posix over g r H. unfold makeflags, flagstring. rewrite H. destruct (group_spec _ _ _ H) as (l1 & E1 & E2 & E3).
    assert (K : forall x, In x (l1 ++ r) -> known (fst x)) by (intros x Hx; rewrite <- E1 in Hx; exact (flag_list_known st x Hx)).
    rewrite flags_text_body by (intros x Hx; apply K; apply in_or_app; right; exact Hx).
    assert (Eg : double_dollars g = g).
    { apply dd_plain. rewrite E2. intros Hi. apply in_map_iff in Hi. destruct Hi as [x [X1 X2]].
      pose proof (K x (in_or_app _ _ _ (or_introl X2))) as Kx. destruct (known_named _ Kx (proj2 Kx)) as (_ & NS & _).
      destruct (NS (proj1 (E3 x X2))) as (_ & _ & _ & _ & _ & Dn). contradiction. }
    rewrite dd_app, Eg. cbn [andb].
    set (tail := (if is_nil (as_list D (st "eval_strings")) then [] else s2l " $(-*-eval-flags-*-)") ++
      (if over then s2l (if posix then " -- $(-*-command-variables-*-)" else " -- $(MAKEOVERRIDES)") else [])).
    destruct (g ++ double_dollars (body (map flag_word r))) as [|x t] eqn:F.
    - cbn [app]. assert (J : tail = [] \/ exists u, tail = c_sp :: u).
      { unfold tail. destruct (is_nil _); [destruct over; [right; destruct posix; eexists; reflexivity|left; reflexivity]|right; eexists; reflexivity]. }
      destruct J as [->|[u ->]]; reflexivity.
    - cbn [app]. rewrite (eqc_refl c_minus). reflexivity.
  Qed.

  (** ** Decoding *)

  Definition effect (d : dstate) (x : switch * option str) : dstate :=
    let p := sw_ptr (fst x) in
    match sw_type (fst x), snd x with
    | flag, None => set_d D d p (VInt D 1)
    | flag_off, None => set_d D d p (VInt D 0)
    | string_, Some a => set_d D d p (VStr D (Some a))
    | (strlist | filename), Some a => set_d D d p (VList D (as_list D (d_opts D d p) ++ [a]))
    | positive_int, Some [] => set_d D d p (VInt D 0)
    | positive_int, Some a => set_d D d p (VInt D (digits_value a))
    | floating, Some a => set_d D d p (VDbl D (atof a))
    | _, _ => d
    end.
  (** What [st] can put into an entry. *)
  Definition good (x : switch * option str) : Prop :=
    known (fst x) /\
    match sw_type (fst x), snd x with
    | flag, None | flag_off, None => True
    | (string_ | strlist | floating), Some a => a <> []
    | filename, Some a => a <> [] /\ expand_command_line_file tilde a = Some a
    | positive_int, Some [] => sw_noarg (fst x) = c_int 0
    | positive_int, Some a => forallb is_digit a = true /\ (1 <= digits_value a <= INT_MAX)%Z
    | _, _ => False
    end.
  Definition dash (w : str) : Prop := exists t, w = c_minus :: t.
  Definition next_dash (ws : list str) : Prop := match ws with [] => True | w :: _ => dash w end.

  Notation apply := (apply_switch D atof minus_one tilde true).
  Lemma apply_none : forall x ws d, good x -> snd x = None ->
    arg_of (fst x) = no_argument /\ exists ws', apply (fst x) None ws d = Some (effect d x, ws').
  Proof.
    intros [cs arg] ws d [K G] E. cbn [fst snd] in *. subst arg. pose proof (known_named _ K) as N. destruct (N (proj2 K)) as (E & _ & _).
    unfold arg_of, apply_switch, effect. cbn [fst snd]. rewrite E.
    destruct (sw_type cs); try contradiction; cbn; eauto.
  Qed.
  Lemma apply_some : forall x ws d a, good x -> snd x = Some a -> a <> [] ->
    arg_of (fst x) <> no_argument /\ apply (fst x) (Some a) ws d = Some (effect d x, ws).
  Proof.
    intros [cs arg] ws d a [K G] E Ha. cbn [fst snd] in *. subst arg. pose proof (known_named _ K) as N. destruct (N (proj2 K)) as (E & _ & _).
    unfold arg_of, apply_switch, effect. cbn [fst snd]. rewrite E. cbn [negb orb].
    destruct a as [|c r]; [congruence|].
    destruct (sw_type cs); try contradiction; (split; [destruct (sw_noarg cs); discriminate|]).
    - reflexivity.
    - reflexivity.
    - destruct G as [_ G]. rewrite G. reflexivity.
    - destruct G as [G1 G2]. rewrite G1. destruct (Z.ltb_spec INT_MAX (digits_value (c :: r))); [lia|].
      destruct (Z.ltb_spec (digits_value (c :: r)) 1); [lia|]. reflexivity.
    - reflexivity.
  Qed.
  Lemma dash_not_digits : forall w, dash w -> forallb is_digit w = false.
  Proof. intros w [t ->]. reflexivity. Qed.
  Lemma apply_empty : forall x ws d, good x -> snd x = Some [] -> next_dash ws ->
    arg_of (fst x) = optional_argument /\ apply (fst x) None ws d = Some (effect d x, ws).
  Proof.
    intros [cs arg] ws d [K G] E Ha. cbn [fst snd] in *. subst arg. pose proof (known_named _ K) as N. destruct (N (proj2 K)) as (E & _ & _).
    unfold arg_of, apply_switch, effect. cbn [fst snd]. rewrite E. cbn [negb orb].
    destruct (sw_type cs); try congruence; try (destruct G; congruence). rewrite G. split; [reflexivity|].
    destruct ws as [|w ws]; [reflexivity|]. rewrite (dash_not_digits w Ha). reflexivity.
  Qed.

  Notation loop := (decode_loop D atof minus_one tilde true).
  Notation cluster := (cluster D atof minus_one tilde true).
  Lemma step_group : forall l ws d, (forall x, In x l -> good x /\ short_option (sw_c (fst x)) = true /\ snd x = None) ->
    cluster (map (fun x => ascii_of_nat (sw_c (fst x))) l) ws d = Some (fold_left effect l d, ws).
  Proof.
    induction l as [|x l IH]; intros ws d H; [reflexivity|]. cbn [map M_Flags.cluster fold_left].
    destruct (H x (or_introl eq_refl)) as (G & S & E). destruct (known_named _ (proj1 G) (proj2 (proj1 G))) as (_ & NS & _).
    destruct (NS S) as (F & _). rewrite F. destruct (apply_none x ws d G E) as (A & ws' & A2). rewrite A, A2.
    apply IH. intros y Hy. apply H. right. exact Hy.
  Qed.
  Lemma step_word : forall x ws d n, good x -> next_dash ws ->
    loop (S n) (flag_word x :: ws) d = loop n ws (effect d x).
  Proof.
    intros x ws d n G Hd. destruct (known_named _ (proj1 G) (proj2 (proj1 G))) as (_ & NS & NL).
    cbn [decode_loop]. unfold flag_word. destruct x as [cs arg]. cbn [fst] in *.
    destruct (short_option (sw_c cs)) eqn:S.
    - destruct (NS eq_refl) as (F & M & _). cbn [app]. rewrite (eqc_refl c_minus). cbn [negb]. rewrite M.
      cbn [M_Flags.cluster]. rewrite F. destruct arg as [[|a r]|].
      + destruct (apply_empty (cs, Some []) ws d G eq_refl Hd) as [A1 A2]. cbn [fst] in A1, A2. rewrite A1, A2. reflexivity.
      + destruct (apply_some (cs, Some (a :: r)) ws d (a :: r) G eq_refl ltac:(discriminate)) as [A1 A2]. cbn [fst] in A1, A2.
        destruct (arg_of cs); [congruence| |]; exact (f_equal (fun z => match z with Some (d', ws'') => loop n ws'' d' | None => None end) A2).
      + destruct (apply_none (cs, None) ws d G eq_refl) as (A1 & ws' & A2). cbn [fst] in A1, A2. rewrite A1, A2. reflexivity.
    - destruct (NL eq_refl) as (F1 & F2 & Q & Z & _ & _). apply eqc_in in Q. cbn [app]. rewrite !(eqc_refl c_minus). cbn [negb].
      destruct (s2l (sw_long cs)) as [|y t] eqn:L; [congruence|]. rewrite <- L in *. cbn [app].
      assert (W : forall u, exists b v, s2l (sw_long cs) ++ u = b :: v) by (intros u; rewrite L; cbn; eauto).
      assert (LO : long_opt D atof minus_one tilde true (s2l (sw_long cs) ++ match arg with Some (a :: r) => [c_eq] ++ a :: r | _ => [] end) ws d = Some (effect d (cs, arg), ws)).
      { unfold long_opt. destruct arg as [[|a r]|].
        - rewrite app_nil_r, cut_none by exact Q. rewrite F1, F2. destruct (apply_empty (cs, Some []) ws d G eq_refl Hd) as [A1 A2]. cbn [fst] in A1, A2. rewrite A1. exact A2.
        - cbn [app]. rewrite cut_at_prefix by exact Q. cbn [cut_at]. rewrite (eqc_refl c_eq), app_nil_r, F1, F2.
          destruct (apply_some (cs, Some (a :: r)) ws d (a :: r) G eq_refl ltac:(discriminate)) as [A1 A2]. cbn [fst] in A1, A2.
          destruct (arg_of cs); [congruence|exact A2|exact A2].
        - rewrite app_nil_r, cut_none by exact Q. rewrite F1, F2. destruct (apply_none (cs, None) ws d G eq_refl) as (A1 & ws' & A2). cbn [fst] in A1, A2.
          rewrite A1, A2. reflexivity. }
      destruct (W (match arg with Some (a :: r) => [c_eq] ++ a :: r | _ => [] end)) as (b & v & J). cbn [app] in J, LO |- *.
      rewrite J in *. rewrite LO. reflexivity.
  Qed.
  Lemma word_dash : forall x, dash (flag_word x).
  Proof. intros [cs arg]. eexists. reflexivity. Qed.
  Lemma step_words : forall l ws d n, (forall x, In x l -> good x) -> next_dash ws ->
    loop (length l + n) (map flag_word l ++ ws) d = loop n ws (fold_left effect l d).
  Proof.
    induction l as [|x l IH]; intros ws d n H Hw; [reflexivity|]. cbn [length plus map app fold_left].
    rewrite step_word; [apply IH; [intros; apply H; right; assumption|exact Hw]|apply H; left; reflexivity|].
    destruct l; [exact Hw|]. cbn. apply word_dash.
  Qed.
  Definition eval_word (s : str) : str := s2l "--eval=" ++ s.
  Definition add_eval (d : dstate) (s : str) : dstate :=
    set_d D d "eval_strings" (VList D (as_list D (d_opts D d "eval_strings") ++ [s])).
  Lemma step_evals : forall l ws d n, ~ In [] l ->
    loop (length l + n) (map eval_word l ++ ws) d = loop n ws (fold_left add_eval l d).
  Proof.
    induction l as [|x l IH]; intros ws d n H; [reflexivity|]. cbn [length plus map app fold_left].
    destruct x as [|c x]; [exfalso; apply H; left; reflexivity|].
    transitivity (loop (length l + n) (map eval_word l ++ ws) (add_eval d (c :: x))); [reflexivity|].
    apply IH. intros K. apply H. right. exact K.
  Qed.
  Lemma step_rest : forall ws d n, (forall w, In w ws -> w <> s2l "-") ->
    loop (S n) (s2l "--" :: ws) d = Some (mkds D (d_opts D d) (d_args D d ++ ws)).
  Proof.
    intros ws d n H. transitivity (Some (fold_left (non_switch D) ws d)); [reflexivity|]. f_equal. clear n.
    revert d H. induction ws as [|w ws IH]; intros d H; [destruct d; cbn; rewrite app_nil_r; reflexivity|].
    cbn [fold_left]. rewrite IH by (intros; apply H; right; assumption). unfold non_switch.
    destruct (str_eqb w (s2l "-")) eqn:E; [apply str_eqb_eq in E; exfalso; apply (H w); [left; reflexivity|exact E]|].
    cbn [d_opts d_args]. rewrite <- app_assoc. reflexivity.
  Qed.

  Lemma decode_text : forall g ws d, (forall w, In w ws -> w <> []) -> next_dash ws ->
    (forall c, In c g -> isspace c = false /\ easy c = true /\ c <> c_eq /\ (c =?c c_minus) = false) ->
    decode_value D atof minus_one tilde (g ++ body ws) d =
    decode_switches D atof minus_one tilde true ((match g with [] => [] | _ => [c_minus :: g] end) ++ ws) d.
  Proof.
    intros g ws d H1 H2 H3. unfold decode_value. destruct g as [|c g].
    - cbn [app]. destruct ws as [|w ws]; [reflexivity|]. unfold body. cbn [map concat app]. fold (body ws).
      cbn [next_token]. change (isspace c_sp) with true. cbn iota. destruct H2 as [t ->].
      change (bq (c_minus :: t) ++ body ws) with (c_minus :: bq t ++ body ws). cbn [next_token]. change (isspace c_minus) with false. cbn iota.
      change (c_minus :: bq t ++ body ws) with (bq (c_minus :: t) ++ body ws). rewrite words_bq. cbn [app].
      rewrite words_body by (intros; apply H1; right; assumption). rewrite (eqc_refl c_minus). reflexivity.
    - cbn [app next_token]. destruct (H3 c (or_introl eq_refl)) as (A1 & A2 & A3 & A4). rewrite A1. cbn iota.
      assert (B : bq (c :: g) = c :: g).
      { apply bq_easy. apply forallb_forall. intros y Hy. apply (H3 y Hy). }
      assert (W : env_words false [] (c :: g ++ body ws) = (c :: g) :: ws).
      { change (c :: g ++ body ws) with ((c :: g) ++ body ws). rewrite <- B at 1. rewrite words_bq. cbn [app]. apply words_body. exact H1. }
      rewrite W, A4. cbn [negb andb].
      assert (Q : existsb (fun x => x =?c c_eq) (c :: g) = false).
      { apply Bool.not_true_iff_false. intros E. apply existsb_exists in E. destruct E as [y [Y1 Y2]]. apply eqc_true in Y2. apply (H3 y Y1). exact Y2. }
      rewrite Q. reflexivity.
  Qed.

  Lemma step_flags : forall l g r ws d n, simple_group l = (g, r) -> (forall x, In x l -> good x) -> next_dash ws ->
    loop (length (match g with [] => [] | _ => [c_minus :: g] end) + (length r + n)) ((match g with [] => [] | _ => [c_minus :: g] end) ++ map flag_word r ++ ws) d = loop n ws (fold_left effect l d).
  Proof.
    intros l g r ws d n H G Hw. destruct (group_spec _ _ _ H) as (l1 & -> & -> & H3). rewrite fold_left_app.
    destruct l1 as [|x l1].
    - cbn [map app fold_left length plus].
      apply step_words; [|exact Hw]. intros y Hy. apply G. exact Hy.
    - cbn [map app length plus decode_loop].
      rewrite (eqc_refl c_minus). cbn [negb].
      destruct (H3 x (or_introl eq_refl)) as (S & _). pose proof (G x (or_introl eq_refl)) as Gx.
      destruct (known_named _ (proj1 Gx) (proj2 (proj1 Gx))) as (_ & NS & _). destruct (NS S) as (_ & M & _). rewrite M.
      change (ascii_of_nat (sw_c (fst x)) :: map (fun x => ascii_of_nat (sw_c (fst x))) l1) with (map (fun x => ascii_of_nat (sw_c (fst x))) (x :: l1)).
      rewrite step_group.
      + apply step_words; [|exact Hw]. intros y Hy. apply G. apply in_or_app. right. exact Hy.
      + intros y Hy. split; [apply G; apply in_or_app; left; exact Hy|]. apply H3. exact Hy.
  Qed.

  (** All words of a child's MAKEFLAGS. *)
  Lemma decode_all : forall l g r evals over cvs d, simple_group l = (g, r) -> (forall x, In x l -> good x) -> ~ In [] evals ->
    (forall w, In w cvs -> w <> [] /\ w <> s2l "-") ->
    let d' := fold_left add_eval evals (fold_left effect l d) in
    decode_value D atof minus_one tilde (g ++ body (map flag_word r ++ map eval_word evals ++ (if over : bool then s2l "--" :: cvs else []))) d =
    Some (mkds D (d_opts D d') (d_args D d' ++ if over then cvs else [])).
  Proof.
    intros l g r evals over cvs d H G He Hc d'. destruct (group_spec _ _ _ H) as (l1 & E1 & E2 & E3).
    set (tail := if over then s2l "--" :: cvs else []).
    assert (T : next_dash tail) by (unfold tail; destruct over; [exists (s2l "-"); reflexivity|exact I]).
    assert (T2 : next_dash (map eval_word evals ++ tail)) by (destruct evals; [exact T|eexists; reflexivity]).
    rewrite decode_text.
    - unfold decode_switches. rewrite !app_length, !map_length.
      assert (N : forall a b c e : nat, S (a + (b + (c + e))) = a + (b + (c + S e))) by (intros; lia). rewrite N.
      etransitivity; [exact (step_flags l g r (map eval_word evals ++ tail) d (length evals + S (length tail)) H G T2)|].
      rewrite step_evals by exact He. fold d'. unfold tail. destruct over.
      + apply step_rest. intros w Hw. apply (Hc w Hw).
      + cbn [decode_loop length]. rewrite app_nil_r. destruct d'; reflexivity.
    - intros w Hw. apply in_app_or in Hw. destruct Hw as [Hw|Hw].
      + apply in_map_iff in Hw. destruct Hw as [x [<- _]]. destruct x. discriminate.
      + apply in_app_or in Hw. destruct Hw as [Hw|Hw]; [apply in_map_iff in Hw; destruct Hw as [x [<- _]]; discriminate|].
        unfold tail in Hw. destruct over; [|destruct Hw]. destruct Hw as [<-|Hw]; [discriminate|apply (Hc w Hw)].
    - destruct r; [exact T2|apply word_dash].
    - intros c Hc'. rewrite E2 in Hc'. apply in_map_iff in Hc'. destruct Hc' as [x [<- Hx]].
      pose proof (G x ltac:(rewrite E1; apply in_or_app; left; exact Hx)) as Gx.
      destruct (known_named _ (proj1 Gx) (proj2 (proj1 Gx))) as (_ & NS & _). destruct (NS (proj1 (E3 x Hx))) as (_ & M & Y & P & Q & _). auto.
  Qed.
End Fl.
