From Verif Require Import Base M_Text S_Text P_Text P_Text2 M_Var S_Var P_Var M_Expand S_Expand P_Expand S_Eval P_Eval M_Env S_Env P_Env M_Def S_Def P_Def P_Def2
  M_Flags S_Flags P_Flags P_Flags2 P_Flags3 Properties_Expand Properties_Eval Properties_Def.
Open Scope string_scope.
Open Scope list_scope.
Open Scope nat_scope.

Definition n_MAKEFLAGS : str := s2l "MAKEFLAGS".
Definition n_EVAL : str := s2l "-*-eval-flags-*-".
Definition n_CVS : str := s2l "-*-command-variables-*-".
Definition n_OVER : str := s2l "MAKEOVERRIDES".

(** ** References *)
Lemma recursive_reference : forall ftab fuel c n id v t, lookup_variable n c = Some (id, v) -> v_append v = false -> v_recursive v = true ->
  plain_name c_rparen n -> v_value v = double_dollars t ->
  exists st, expand ftab true (S (S fuel)) c st0 (c_dollar :: c_lparen :: n ++ [c_rparen]) = XOk (st, t).
Proof.
  intros ftab fuel c n id v t L A R [N1 [N2 [N3 N4]]] V.
  rewrite (step_ref ftab true (S fuel) c st0 c_lparen c_rparen n []);
    [|left; split; reflexivity|apply no_function; [exact N1|reflexivity|reflexivity]|exact N3|exact N2].
  rewrite full_plain by exact N4. unfold reference_variable. rewrite L, A.
  assert (E : exists st, recursively_expand true (expand ftab true (S fuel)) c st0 id n v = XOk (st, t)).
  { unfold recursively_expand. cbn [busy x_busy st0 existsb]. rewrite A, V, C12_doubled_dollars. cbn [xbind]. eauto. }
  rewrite R. destruct (v_value v) as [|y l] eqn:W.
  - assert (t = []) as ->.
    { destruct t as [|x t]; [reflexivity|]. cbn [double_dollars flat_map] in V. destruct (x =?c c_dollar); discriminate. }
    exists st0. reflexivity.
  - destruct E as [st E]. exists st. rewrite E. cbn [xbind]. rewrite X_nil. cbn [prefixed]. rewrite app_nil_r. reflexivity.
Qed.

Lemma unique_value : forall ftab fuel c t st s r, expand ftab true fuel c st0 t = XOk (st, s) -> ev ftab 0 c t r -> s = r.
Proof.
  intros ftab fuel c t st s r H E. destruct (C13_check_is_transparent ftab fuel c t) as [G _]. destruct (G _ _ H) as [st' G'].
  destruct (C44_expansion_follows_the_rules _ _ _ _ E) as [F K]. destruct (K (Nat.max F fuel) ltac:(lia)) as [st2 K'].
  rewrite (expand_mono ftab false fuel (Nat.max F fuel) c st0 t) in K' by (try lia; rewrite G'; discriminate). congruence.
Qed.

Lemma body_app : forall a b, body (a ++ b) = body a ++ body b.
Proof. intros. unfold body. rewrite map_app, concat_app. reflexivity. Qed.
Lemma join_body : forall l, l <> [] -> c_sp :: join_sp (map (fun w => double_dollars (bq w)) l) = double_dollars (body l).
Proof.
  induction l as [|w l IH]; intros H; [congruence|]. unfold body. cbn [map concat]. fold (body l). rewrite dd_app.
  change (double_dollars (c_sp :: bq w)) with (c_sp :: double_dollars (bq w)). cbn [app]. f_equal.
  destruct l as [|w2 l]; [cbn; rewrite app_nil_r; reflexivity|].
  rewrite <- IH by discriminate. cbn [map join_sp]. reflexivity.
Qed.

Section Fl.
  Variable D : Type.
  Variable fmt_g : D -> str.
  Variable atof : str -> D.
  Variable deqb : D -> D -> bool.
  Variable minus_one : D.
  Variable tilde : str -> option str.
  Notation ostate := (ostate D).
  Notation makeflags := (makeflags D fmt_g deqb minus_one true false).
  Notation flag_list := (flag_list D fmt_g deqb minus_one true false).

  (** The variables main sets up for MAKEFLAGS, seen from the scopes [c]. *)
  Definition set_up (c : chain) (st : ostate) (posix : bool) (cvs : list (str * bool * str)) : Prop :=
    (exists id v, lookup_variable n_MAKEFLAGS c = Some (id, v) /\ v_append v = false /\ v_recursive v = true /\
       v_value v = makeflags posix (negb (is_nil cvs)) st /\ v_origin v = makeflags_origin D st) /\
    (as_list D (st "eval_strings") <> [] -> exists id v, lookup_variable n_EVAL c = Some (id, v) /\ v_append v = false /\ v_recursive v = false /\
       v_value v = eval_flags D st) /\
    (cvs <> [] -> exists id v, lookup_variable n_CVS c = Some (id, v) /\ v_append v = false /\ v_recursive v = false /\
       v_value v = command_variables_text cvs) /\
    (cvs <> [] -> posix = false -> exists id v, lookup_variable n_OVER c = Some (id, v) /\ v_append v = false /\ v_recursive v = true /\
       v_value v = s2l "${-*-command-variables-*-}").

  Lemma plain_const : forall cl n, (cl = c_rparen \/ cl = c_rbrace) ->
    forallb (fun c => negb (isspace c) && negb (c =?c c_dollar) && negb (c =?c c_rparen) && negb (c =?c c_rbrace) && negb (c =?c c_colon)) n = true ->
    plain_name cl n.
  Proof.
    intros cl n Hcl H. rewrite forallb_forall in H.
    assert (G : forall x, In x n -> isspace x = false /\ x <> c_dollar /\ x <> c_rparen /\ x <> c_rbrace /\ x <> c_colon).
    { intros x Hx. specialize (H x Hx). rewrite !andb_true_iff, !negb_true_iff in H. destruct H as [[[[A B] C] E] F].
      repeat split; try (apply Ascii.eqb_neq; assumption). exact A. }
    split; [|split; [|split]].
    - intros x Hx. apply (G x Hx).
    - intros K. apply G in K. tauto.
    - intros K. apply G in K. destruct Hcl as [->| ->]; tauto.
    - intros K. apply G in K. tauto.
  Qed.

  Lemma quote_eval : forall st, map (fun s => s2l "--eval=" ++ quote_for_env s) (as_list D (st "eval_strings")) =
    map (fun w => double_dollars (bq w)) (map eval_word (as_list D (st "eval_strings"))).
  Proof.
    intros st. rewrite map_map. apply map_ext. intros s. unfold eval_word. rewrite quote_dd, bq_app, dd_app. reflexivity.
  Qed.
  Lemma quote_var : forall cvs : list (str * bool * str),
    map (fun '(n, r, v) => quote_for_env n ++ (if r : bool then [] else [c_colon]) ++ c_eq :: quote_for_env v) cvs =
    map (fun w => double_dollars (bq w)) (map var_word cvs).
  Proof.
    intros cvs. rewrite map_map. apply map_ext. intros [[n r] v]. unfold var_word. rewrite !quote_dd, !bq_app, !dd_app. f_equal.
    destruct r; reflexivity.
  Qed.

  (** The flags themselves contain no dollar sign, unless an argument does. *)
  Lemma flags_no_dollar : forall st g r, reasonable D tilde st -> no_dollars D st ->
    (forall d, st "max_load_average" = VDbl D d -> ~ In c_dollar (fmt_g d)) ->
    simple_group (flag_list st) = (g, r) -> ~ In c_dollar (g ++ body (map flag_word r)).
  Proof.
    intros st g r R [ND1 ND2] NL H. destruct (group_spec _ _ _ H) as (l1 & E1 & E2 & E3).
    assert (K : forall x, In x (l1 ++ r) -> known (fst x) /\ forall a, snd x = Some a -> ~ In c_dollar a).
    { intros x Hx. rewrite <- E1 in Hx. split; [exact (flag_list_known _ _ _ _ _ _ Hx)|]. intros a Ha.
      unfold M_Flags.flag_list in Hx. apply in_flat_map in Hx. destruct Hx as [cs [H1 H2]].
      pose proof table_kinds as TK. rewrite Forall_forall in TK. specialize (TK cs H1).
      destruct (sw_toenv cs) eqn:T; cbn [andb orb negb] in H2; [|destruct H2]. specialize (TK T).
      unfold flags_of in H2. destruct (sw_type cs) eqn:TY; try contradiction.
      - destruct (_ && _) in H2; [|destruct H2]. destruct (_ =? _) in H2; [destruct H2|]. destruct H2 as [<-|[]]. discriminate.
      - destruct (_ && _) in H2; [|destruct H2]. destruct (_ =? _) in H2; [destruct H2|]. destruct H2 as [<-|[]]. discriminate.
      - destruct (r_string _ _ _ R _ TK) as (s & Es & Hs). rewrite Es in H2. cbn [as_str] in H2.
        destruct s as [s|]; [|destruct H2]. destruct H2 as [<-|[]]. cbn [snd] in Ha. injection Ha as <-. exact (ND1 _ _ TK Es).
      - destruct (r_list _ _ _ R _ (proj1 TK)) as (l & Es & Hs). rewrite Es in H2. cbn [as_list] in H2.
        apply in_map_iff in H2. destruct H2 as (s & <- & Hl). cbn [snd] in Ha. injection Ha as <-.
        exact (ND2 _ _ _ (in_or_app _ _ _ (or_introl (proj1 TK))) (proj2 TK) Es Hl).
      - destruct (r_file _ _ _ R _ TK) as (l & Es & Hs). rewrite Es in H2. cbn [as_list] in H2.
        apply in_map_iff in H2. destruct H2 as (s & <- & Hl). cbn [snd] in Ha. injection Ha as <-.
        refine (ND2 _ _ _ (in_or_app _ _ _ (or_intror TK)) _ Es Hl). intros Q. clear - TK Q. rewrite Q in TK. destruct TK as [K|[K|[]]]; discriminate.
      - destruct TK as (P & P1 & P2). rewrite P1, P2 in H2.
        destruct (Z.eqb _ _) in H2; [destruct H2|]. destruct (Z.eqb _ _) in H2; destruct H2 as [<-|[]]; cbn [snd] in Ha; injection Ha as <-; [intros []|].
        apply digits_show.
      - destruct TK as (P & P1). rewrite P1 in H2. destruct (r_load _ _ _ R) as (d & Ed). rewrite P, Ed in H2. cbn [as_dbl] in H2.
        destruct (deqb d minus_one); [destruct H2|].
        assert (H3 : In x [(cs, Some (fmt_g d))]) by (destruct (sw_noarg cs); exact H2). destruct H3 as [<-|[]]. cbn [snd] in Ha. injection Ha as <-. exact (NL d Ed). }
    intros Hd. apply in_app_or in Hd. destruct Hd as [Hd|Hd].
    - rewrite E2 in Hd. apply in_map_iff in Hd. destruct Hd as [x [X1 X2]].
      destruct (K x (in_or_app _ _ _ (or_introl X2))) as [Kx _]. destruct (known_named _ Kx (proj2 Kx)) as (_ & NS & _).
      destruct (NS (proj1 (E3 x X2))) as (_ & _ & _ & _ & _ & Dn). contradiction.
    - unfold body in Hd. rewrite map_map in Hd. apply in_concat in Hd. destruct Hd as (y & Y1 & Y2). apply in_map_iff in Y1. destruct Y1 as ([cs arg] & <- & Y3).
      destruct Y2 as [Y2|Y2]; [discriminate|]. revert Y2. apply bq_dollar.
      destruct (K (cs, arg) (in_or_app _ _ _ (or_intror Y3))) as [Kx Ka]. destruct (known_named _ Kx (proj2 Kx)) as (_ & NS & NL2). cbn [fst snd] in *.
      assert (A : ~ In c_dollar (match arg with Some (a :: r) => (if short_option (sw_c cs) then [] else [c_eq]) ++ a :: r | _ => [] end)).
      { destruct arg as [[|a u]|]; try (intros []; fail). specialize (Ka _ eq_refl). destruct (short_option (sw_c cs)); [exact Ka|]. intros [Q|Q]; [discriminate|contradiction]. }
      unfold flag_word. intros [Q|Q]; [discriminate|]. apply in_app_or in Q. destruct Q as [Q|Q]; [|contradiction].
      destruct (short_option (sw_c cs)).
      + destruct (NS eq_refl) as (_ & _ & _ & _ & _ & Dn). destruct Q as [Q|[]]. contradiction.
      + destruct (NL2 eq_refl) as (_ & _ & _ & _ & _ & Dn). apply eqc_in in Dn. destruct Q as [Q|Q]; [discriminate|contradiction].
  Qed.

  (** What $(MAKEFLAGS) is in a recipe. *)
  Lemma makeflags_value : forall ftab c st posix cvs g r, reasonable D tilde st -> no_dollars D st ->
    (forall d, st "max_load_average" = VDbl D d -> ~ In c_dollar (fmt_g d)) ->
    set_up c st posix cvs -> simple_group (flag_list st) = (g, r) ->
    ev ftab 0 c (c_dollar :: c_lparen :: n_MAKEFLAGS ++ [c_rparen])
      (double_dollars (g ++ body (map flag_word r ++ map eval_word (as_list D (st "eval_strings")) ++
         (if negb (is_nil cvs) then s2l "--" :: map var_word cvs else [])))).
  Proof.
    intros ftab c st posix cvs g r R ND NL (S1 & S2 & S3 & S4) Hg.
    destruct S1 as (id & v & L & A & Rec & V & _).
    rewrite <- (app_nil_r (double_dollars _)). apply (ev_ref ftab 0 c c_lparen c_rparen n_MAKEFLAGS _ [] []);
      [left; split; reflexivity|apply plain_const; [left; reflexivity|reflexivity]| |constructor].
    apply er_var. apply (evar_rec ftab 0 c n_MAKEFLAGS id v _ L A Rec). rewrite V, (makeflags_text _ _ _ _ _ _ _ _ _ Hg).
    pose proof (flags_no_dollar st g r R ND NL Hg) as ND'. rewrite (dd_plain _ ND').
    rewrite !body_app, (app_assoc g (body (map flag_word r))), dd_app, (dd_plain _ ND'). apply ev_text; [exact ND'|].
    rewrite dd_app.
    assert (P1 : forall n : str, forallb (fun c => negb (isspace c) && negb (c =?c c_dollar) && negb (c =?c c_rparen) && negb (c =?c c_rbrace) && negb (c =?c c_colon)) n = true ->
                 forall cl, cl = c_rparen \/ cl = c_rbrace -> plain_name cl n) by (intros; apply plain_const; assumption).
    assert (E2 : forall t r', ev ftab 0 c t r' ->
       ev ftab 0 c ((if is_nil (as_list D (st "eval_strings")) then [] else s2l " $(-*-eval-flags-*-)") ++ t)
                   (double_dollars (body (map eval_word (as_list D (st "eval_strings")))) ++ r')).
    { intros t r' Ht. destruct (as_list D (st "eval_strings")) as [|s l] eqn:Q; [exact Ht|]. cbn [is_nil].
      destruct (S2 ltac:(discriminate)) as (id' & v' & L' & A' & R' & V').
      rewrite <- join_body by discriminate. rewrite <- Q, <- quote_eval. fold (eval_flags D st). rewrite <- V'.
      apply (ev_text ftab 0 c [c_sp] (c_dollar :: c_lparen :: n_EVAL ++ c_rparen :: t)); [intros [K|[]]; discriminate|].
      apply ev_ref; [left; split; reflexivity|apply P1; [reflexivity|left; reflexivity]| |exact Ht].
      apply er_var. apply (evar_simple ftab 0 c n_EVAL id' v' L' A' R'). }
    apply E2. clear E2. rewrite <- (app_nil_r (if negb (is_nil cvs) then _ else [])), <- (app_nil_r (double_dollars (body (if negb (is_nil cvs) then _ else [])))).
    destruct cvs as [|x cvs]; [constructor|]. cbn [is_nil negb].
    destruct (S3 ltac:(discriminate)) as (id' & v' & L' & A' & R' & V').
    assert (CV : forall cl, cl = c_rparen \/ cl = c_rbrace -> plain_name cl n_CVS) by (apply P1; reflexivity).
    assert (Tx : double_dollars (body (s2l "--" :: map var_word (x :: cvs))) = s2l " -- " ++ v_value v').
    { change (s2l "--" :: map var_word (x :: cvs)) with ([s2l "--"] ++ map var_word (x :: cvs)). rewrite body_app, dd_app.
      rewrite <- (join_body (map var_word (x :: cvs))) by discriminate. rewrite <- quote_var. fold (command_variables_text (x :: cvs)). rewrite <- V'. reflexivity. }
    rewrite Tx. rewrite <- app_assoc. destruct posix.
    - apply (ev_text ftab 0 c (s2l " -- ") (c_dollar :: c_lparen :: n_CVS ++ [c_rparen])); [intros K; repeat destruct K as [K|K]; try discriminate; destruct K|].
      apply ev_ref; [left; split; reflexivity|apply CV; left; reflexivity| |constructor].
      apply er_var. apply (evar_simple ftab 0 c n_CVS id' v' L' A' R').
    - destruct (S4 ltac:(discriminate) eq_refl) as (id2 & v2 & L2 & A2 & R2 & V2).
      apply (ev_text ftab 0 c (s2l " -- ") (c_dollar :: c_lparen :: n_OVER ++ [c_rparen])); [intros K; repeat destruct K as [K|K]; try discriminate; destruct K|].
      apply ev_ref; [left; split; reflexivity|apply P1; [reflexivity|left; reflexivity]| |constructor].
      apply er_var. apply (evar_rec ftab 0 c n_OVER id2 v2 _ L2 A2 R2). rewrite V2. rewrite <- (app_nil_r (v_value v')).
      apply (ev_ref ftab 0 c c_lbrace c_rbrace n_CVS (v_value v') [] []); [right; split; reflexivity|apply CV; right; reflexivity| |constructor].
      apply er_var. apply (evar_simple ftab 0 c n_CVS id' v' L' A' R').
  Qed.
End Fl.
