(** The expander follows the rules of S_Eval. *)
From Verif Require Import Base M_Quote S_Text M_Text P_Text P_Text2 P_Text3 P_Text4 M_Var P_Var M_Expand S_Expand P_Expand S_Eval.
Open Scope string_scope.
Open Scope list_scope.
Open Scope nat_scope.

Lemma trim_strip : forall a s, trim_to a s -> strip_whitespace a = s.
Proof.
  intros a s [pre [post [E [H1 [H2 [H3 H4]]]]]]. subst a. unfold strip_whitespace.
  rewrite next_token_space by exact H1.
  destruct s as [|c0 s0] eqn:Es.
  - cbn [app]. assert (N : next_token post = []).
    { rewrite <- (app_nil_r post). rewrite next_token_space by exact H2. reflexivity. }
    rewrite N. reflexivity.
  - rewrite <- Es in *.
    assert (N1 : next_token (s ++ post) = s ++ post).
    { rewrite Es. apply next_token_stop. apply (H3 c0 s0). exact Es. }
    rewrite N1, rev_app_distr, next_token_space by (apply all_space_rev; exact H2).
    assert (N2 : next_token (rev s) = rev s).
    { destruct (rev s) as [|c l] eqn:E; [reflexivity|]. apply next_token_stop.
      apply (H4 c (rev l)). rewrite <- (rev_involutive s), E. reflexivity. }
    rewrite N2, rev_involutive. reflexivity.
Qed.

Section Steps.
  Variable ftab : str -> option fent.
  Variable guard : bool.
  Notation X := (expand ftab guard).
  Definition run_args (rec : chain -> xst -> str -> xres (xst * str)) c st e (args : list str) :=
    if f_expand e
    then xbind (expand_args rec c st args) (fun '(st, xs) => builtin ftab rec (length xs) c st e xs)
    else builtin ftab rec (length args) c st e args.

  Lemma X_S : forall fuel c st t, X (S fuel) c st t = scan ftab guard (X fuel) (S (length t)) c st t [].
  Proof. reflexivity. Qed.
  Lemma X_nil : forall fuel c st, X (S fuel) c st [] = XOk (st, []).
  Proof. reflexivity. Qed.

  (** One construct in front of a text. *)
  Lemma scan_rest : forall fuel n c st t s, length t < n ->
    scan ftab guard (X fuel) n c st t ([] ++ s) = prefixed s (X (S fuel) c st t).
  Proof.
    intros fuel n c st t s H. rewrite X_S. cbn [app]. rewrite <- (app_nil_r s) at 1. rewrite scan_out. f_equal.
    apply scan_fuel; lia.
  Qed.

  Lemma user_not_close : forall op cl, brackets op cl -> is_userfunc cl = false /\ isspace cl = false /\
    (op =?c c_dollar) = false /\ ((op =?c c_lparen) || (op =?c c_lbrace)) = true /\
    (if op =?c c_lparen then c_rparen else c_rbrace) = cl /\ cl <> c_dollar /\ op <> cl /\ op <> c_comma /\ cl <> c_comma /\ op <> c_dollar.
  Proof. intros op cl [[-> ->]|[-> ->]]; repeat split; discriminate. Qed.

  Lemma span_spec : forall f s a b, span f s = (a, b) -> s = a ++ b /\ (forall x l, b = x :: l -> f x = false).
  Proof.
    intros f. induction s as [|c s IH]; intros a b H; cbn [span] in H.
    - inversion H; subst. split; [reflexivity|discriminate].
    - destruct (f c) eqn:E.
      + destruct (span f s) as [a' b'] eqn:Sp. inversion H; subst. destruct (IH _ _ eq_refl) as [-> G]. split; [reflexivity|exact G].
      + inversion H; subst. split; [reflexivity|]. intros x l Hx. inversion Hx; subst. exact E.
  Qed.
  (** A text whose name is not followed by white space is no function call. *)
  Lemma no_function : forall n x rest, no_space n -> isspace x = false -> is_userfunc x = false ->
    lookup_function ftab (n ++ x :: rest) = None.
  Proof.
    intros n x rest Hn Hx Hu. unfold lookup_function. destruct (span is_userfunc (n ++ x :: rest)) as [a b] eqn:Sp.
    destruct (span_spec _ _ _ _ Sp) as [E G]. destruct a as [|a0 a1]; [reflexivity|].
    assert (K : match b with [] => true | c :: _ => isspace c end = false); [|rewrite K; reflexivity].
    assert (L : forall n (a : str), no_space n -> n ++ x :: rest = a ++ b -> (forall y, In y a -> is_userfunc y = true) ->
              match b with [] => true | c :: _ => isspace c end = false).
    { clear - Hx Hu. induction n as [|y n IH]; intros a Hn E Ha.
      - destruct a as [|z a]; cbn [app] in E.
        + subst b. exact Hx.
        + inversion E; subst. rewrite (Ha z) in Hu by (left; reflexivity). discriminate.
      - destruct a as [|z a]; cbn [app] in E.
        + subst b. apply Hn. left. reflexivity.
        + inversion E; subst. apply (IH a); [|assumption|].
          * intros w Hw. apply Hn. right. exact Hw.
          * intros w Hw. apply Ha. right. exact Hw. }
    apply (L n (a0 :: a1) Hn E). intros y Hy.
    assert (A : forall s a b, span is_userfunc s = (a, b) -> forall y, In y a -> is_userfunc y = true).
    { clear. induction s as [|c s IH]; intros a b H y Hy; cbn [span] in H; [inversion H; subst; destruct Hy|].
      destruct (is_userfunc c) eqn:E; [|inversion H; subst; destruct Hy].
      destruct (span is_userfunc s) as [a' b'] eqn:Sp. inversion H; subst. destruct Hy as [<-|Hy]; [exact E|]. exact (IH _ _ eq_refl y Hy). }
    exact (A _ _ _ Sp y Hy).
  Qed.

  Lemma step_text : forall fuel c st a t, ~ In c_dollar a -> X (S fuel) c st (a ++ t) = prefixed a (X (S fuel) c st t).
  Proof. intros. rewrite <- (double_plain a) at 1 by assumption. apply expand_double_prefix. Qed.

  Lemma step_dollar : forall fuel c st t, X (S fuel) c st (c_dollar :: c_dollar :: t) = prefixed [c_dollar] (X (S fuel) c st t).
  Proof. intros. exact (expand_double_prefix ftab guard fuel c st [c_dollar] t). Qed.

  Lemma step_char : forall fuel c st x t, x <> c_dollar -> x <> c_lparen -> x <> c_lbrace ->
    X (S fuel) c st (c_dollar :: x :: t) =
    xbind (reference_variable guard (X fuel) c st [x]) (fun '(st, s) => prefixed s (X (S fuel) c st t)).
  Proof.
    intros fuel c st x t H1 H2 H3. rewrite X_S. set (n := length (c_dollar :: x :: t)). cbn [scan cut_at]. rewrite eqc_refl.
    rewrite (proj2 (Ascii.eqb_neq x c_dollar) H1), (proj2 (Ascii.eqb_neq x c_lparen) H2), (proj2 (Ascii.eqb_neq x c_lbrace) H3). cbn [orb].
    destruct (reference_variable _ _ _ _ _) as [[st' s]| |]; cbn [xbind]; [|reflexivity|reflexivity].
    apply (scan_rest fuel n). unfold n. cbn [length]. lia.
  Qed.

  Lemma step_ref : forall fuel c st op cl n t, brackets op cl -> lookup_function ftab (n ++ cl :: t) = None ->
    ~ In cl n -> ~ In c_dollar n ->
    X (S fuel) c st (c_dollar :: op :: n ++ cl :: t) =
    xbind (full_reference guard (X fuel) c st n) (fun '(st, s) => prefixed s (X (S fuel) c st t)).
  Proof.
    intros fuel c st op cl n t B Hf Hcl Hd. destruct (user_not_close op cl B) as [B1 [B2 [B3 [B4 [B5 [B6 _]]]]]].
    rewrite X_S. set (k := length (c_dollar :: op :: n ++ cl :: t)).
    assert (K : length t < k) by (unfold k; cbn [length]; rewrite app_length; cbn [length]; lia).
    cbn [scan]. replace (cut_at c_dollar (c_dollar :: op :: n ++ cl :: t)) with (Some (@nil ascii, op :: n ++ cl :: t)) by (cbn [cut_at]; rewrite eqc_refl; reflexivity).
    rewrite B3, B4, B5, Hf. rewrite cut_at_prefix by exact Hcl. cbn [cut_at]. rewrite eqc_refl.
    rewrite app_nil_r.
    assert (D : cut_at c_dollar n = None).
    { rewrite <- (app_nil_r n). rewrite cut_at_prefix by exact Hd. reflexivity. }
    rewrite D. destruct (full_reference _ _ _ _ _) as [[st' s]| |]; cbn [xbind]; [|reflexivity|reflexivity].
    rewrite app_nil_r || idtac. apply (scan_rest fuel k). exact K.
  Qed.

  Lemma step_computed : forall fuel c st op cl pre post t, brackets op cl -> nested op cl (pre ++ c_dollar :: post) ->
    ~ In cl pre -> no_space pre ->
    X (S fuel) c st (c_dollar :: op :: (pre ++ c_dollar :: post) ++ cl :: t) =
    xbind (X fuel c st (pre ++ c_dollar :: post)) (fun '(st, n) =>
      xbind (full_reference guard (X fuel) c st n) (fun '(st, s) => prefixed s (X (S fuel) c st t))).
  Proof.
    intros fuel c st op cl pre post t B Hn Hcl Hs. destruct (user_not_close op cl B) as [B1 [B2 [B3 [B4 [B5 [B6 [B7 [B8 [B9 B10]]]]]]]]].
    set (inner := pre ++ c_dollar :: post) in *. rewrite X_S. set (k := length (c_dollar :: op :: inner ++ cl :: t)).
    assert (K : length t < k) by (unfold k; cbn [length]; rewrite app_length; cbn [length]; lia).
    cbn [scan]. replace (cut_at c_dollar (c_dollar :: op :: inner ++ cl :: t)) with (Some (@nil ascii, op :: inner ++ cl :: t)) by (cbn [cut_at]; rewrite eqc_refl; reflexivity).
    rewrite B3, B4, B5.
    assert (Hf : lookup_function ftab (inner ++ cl :: t) = None).
    { unfold inner. rewrite <- app_assoc. cbn [app]. apply no_function; [exact Hs|reflexivity|reflexivity]. }
    rewrite Hf.
    assert (C : exists raw after, cut_at cl (inner ++ cl :: t) = Some (pre ++ c_dollar :: raw, after)).
    { unfold inner. rewrite <- app_assoc, cut_at_prefix by exact Hcl. cbn [app cut_at].
      rewrite (proj2 (Ascii.eqb_neq c_dollar cl)) by congruence.
      destruct (cut_at cl (post ++ cl :: t)) as [[x y]|] eqn:E; [exists x, y; reflexivity|].
      exfalso. revert E. clear. induction post as [|z p IH]; cbn [app cut_at]; [rewrite eqc_refl; discriminate|].
      destruct (z =?c cl); [discriminate|]. destruct (cut_at cl (p ++ cl :: t)) as [[? ?]|]; [discriminate|exact IH]. }
    destruct C as [raw [after C]]. rewrite C.
    assert (D : exists p, cut_at c_dollar (pre ++ c_dollar :: raw) = Some p).
    { clear. induction pre as [|z p IH]; cbn [app cut_at]; [rewrite eqc_refl; eexists; reflexivity|].
      destruct (z =?c c_dollar); [eexists; reflexivity|]. destruct IH as [[a b] E]. rewrite E. eexists. reflexivity. }
    destruct D as [p D]. rewrite D. rewrite match_call by assumption.
    destruct (X fuel c st inner) as [[st1 n]| |]; cbn [xbind]; [|reflexivity|reflexivity].
    destruct (full_reference _ _ _ _ _) as [[st' s]| |]; cbn [xbind]; [|reflexivity|reflexivity].
    apply (scan_rest fuel k). exact K.
  Qed.

  Lemma step_call : forall fuel c st op cl name e args t, brackets op cl -> fun_name name -> ftab name = Some e ->
    arguments op cl (f_max e) args ->
    X (S fuel) c st (c_dollar :: op :: name ++ c_sp :: commas args ++ cl :: t) =
    xbind (run_args (X fuel) c st e args) (fun '(st, s) => prefixed s (X (S fuel) c st t)).
  Proof.
    intros fuel c st op cl name e args t B [N1 [N2 N3]] He [A1 [A2 [A3 A4]]].
    destruct (user_not_close op cl B) as [B1 [B2 [B3 [B4 [B5 [B6 [B7 [B8 [B9 B10]]]]]]]]].
    rewrite X_S. set (k := length (c_dollar :: op :: name ++ c_sp :: commas args ++ cl :: t)).
    assert (K : length t < k) by (unfold k; cbn [length]; rewrite app_length; cbn [length]; rewrite app_length; cbn [length]; lia).
    cbn [scan]. replace (cut_at c_dollar (c_dollar :: op :: name ++ c_sp :: commas args ++ cl :: t))
      with (Some (@nil ascii, op :: name ++ c_sp :: commas args ++ cl :: t)) by (cbn [cut_at]; rewrite eqc_refl; reflexivity).
    rewrite B3, B4, B5. rewrite (lookup_function_named ftab name e) by assumption.
    rewrite skipn_app, skipn_all, Nat.sub_diag. cbn [skipn app].
    assert (Nt : next_token (c_sp :: commas args ++ cl :: t) = commas args ++ cl :: t).
    { cbn [next_token]. replace (isspace c_sp) with true by reflexivity.
      destruct (commas args) as [|x l] eqn:Ec.
      - cbn [app]. apply next_token_stop. exact B2.
      - cbn [app]. apply next_token_stop. exact (A4 x l eq_refl). }
    rewrite Nt, match_call by (first [assumption | apply commas_nested; assumption]).
    assert (R : run_function ftab (X fuel) c st op cl e (commas args) = run_args (X fuel) c st e args).
    { unfold run_function, run_args. rewrite split_commas; [reflexivity|assumption..| |apply commas_len; exact A1].
      destruct A3; [left; assumption|right; lia]. }
    rewrite R. destruct (run_args _ _ _ _ _) as [[st' s]| |]; cbn [xbind]; [|reflexivity|reflexivity].
    apply (scan_rest fuel k). exact K.
  Qed.

  Lemma full_plain : forall rec c st n, ~ In c_colon n -> full_reference guard rec c st n = reference_variable guard rec c st n.
  Proof.
    intros rec c st n H. unfold full_reference. rewrite <- (app_nil_r n) at 1. rewrite cut_at_prefix by exact H. reflexivity.
  Qed.
  Lemma full_subst : forall rec c st n a b, ~ In c_colon n -> ~ In c_eq a ->
    (forall id v, lookup_variable n c = Some (id, v) -> v_append v = false) ->
    full_reference guard rec c st (n ++ c_colon :: a ++ c_eq :: b) =
    xbind (reference_variable guard rec c st n) (fun '(st, value) =>
      match subst_ref value a b with Some s => XOk (st, s) | None => XFuel end).
  Proof.
    intros rec c st n a b Hn Ha Hv. unfold full_reference. rewrite cut_at_prefix by exact Hn. cbn [cut_at]. rewrite eqc_refl.
    rewrite app_nil_r, cut_at_prefix by exact Ha. cbn [cut_at]. rewrite eqc_refl, app_nil_r.
    unfold reference_variable. destruct (lookup_variable n c) as [[id v]|]; [|reflexivity].
    rewrite (Hv id v eq_refl). destruct (v_value v) as [|x l]; [reflexivity|]. reflexivity.
  Qed.

End Steps.

Section Sound.
  Variable ftab : str -> option fent.
  Notation X := (expand ftab false).
  Definition ok (m : nat) (r : str) (x : xst -> xres (xst * str)) : Prop :=
    forall st, x_max st = m -> exists st', x_max st' = m /\ x st = XOk (st', r).
  Definition okl (m : nat) (r : list str) (x : xst -> xres (xst * list str)) : Prop :=
    forall st, x_max st = m -> exists st', x_max st' = m /\ x st = XOk (st', r).
  (** Enough depth for several things at once. *)
  Definition G (m : nat) (r : str) (x : nat -> xst -> xres (xst * str)) : Prop :=
    exists F, forall fuel, F <= fuel -> ok m r (x fuel).

  Lemma G_X : forall m c t r, G m r (fun f st => X f c st t) ->
    exists F, forall fuel, F <= fuel -> ok m r (fun st => X (S fuel) c st t).
  Proof. intros m c t r [F H]. exists F. intros fuel Hf. apply H. lia. Qed.

  Definition Pev (m : nat) (c : chain) (t r : str) : Prop := G m r (fun f st => X f c st t).
  Definition Pvar (m : nat) (c : chain) (n r : str) : Prop :=
    (forall id v, lookup_variable n c = Some (id, v) -> v_append v = false) /\
    G m r (fun f st => reference_variable false (X f) c st n).
  Definition Pref (m : nat) (c : chain) (n r : str) : Prop := G m r (fun f st => reference_variable false (X f) c st n).
  Definition Papp (m : nat) (c : chain) (n : str) (local : bool) (w : chain) (r : str) : Prop :=
    G m r (fun f st => variable_append (X f) c st n local w).
  Definition Ptext (m : nat) (c : chain) (v : var) (r : str) : Prop :=
    G m r (fun f st => if v_recursive v then X f c st (v_value v) else XOk (st, v_value v)).
  Definition Pfun (m : nat) (c : chain) (e : fent) (args : list str) (r : str) : Prop :=
    args <> [] -> f_min e <= length args -> G m r (fun f st => run_args ftab (X f) c st e args).
  Definition Pevs (m : nat) (c : chain) (args xs : list str) : Prop :=
    length args = length xs /\
    exists F, forall fuel, F <= fuel -> okl m xs (fun st => expand_args (X fuel) c st args).
  Definition Por (m : nat) (c : chain) (args : list str) (r : str) : Prop := G m r (fun f st => func_or (X f) c st args).
  Definition Pand (m : nat) (c : chain) (args : list str) (r : str) : Prop := G m r (fun f st => func_and (X f) c st args).
  Definition Peach (m : nat) (c : chain) (n body : str) (ws rs : list str) : Prop :=
    length ws = length rs /\ G m (unwords rs) (fun f st => foreach_loop (X f) c n body st ws).

  Scheme ev_i := Induction for ev Sort Prop
  with eref_i := Induction for eref Sort Prop
  with eapp_i := Induction for eapp Sort Prop
  with etext_i := Induction for etext Sort Prop
  with evar_i := Induction for evar Sort Prop
  with efun_i := Induction for efun Sort Prop
  with evs_i := Induction for evs Sort Prop
  with eor_i := Induction for eor Sort Prop
  with eand_i := Induction for eand Sort Prop
  with eeach_i := Induction for eeach Sort Prop.

  Lemma G_bind : forall m r s (x : nat -> xst -> xres (xst * str)) (y : nat -> xst -> xres (xst * str)) f,
    G m r x -> (forall fuel st, f fuel (st, r) = y fuel st) -> G m s y -> G m s (fun fuel st => xbind (x fuel st) (f fuel)).
  Proof.
    intros m r s x y f [F1 H1] E [F2 H2]. exists (Nat.max F1 F2). intros fuel Hf st Hst.
    destruct (H1 fuel ltac:(lia) st Hst) as [st1 [M1 E1]]. rewrite E1. cbn [xbind]. rewrite E. apply H2; [lia|exact M1].
  Qed.
  Lemma G_ret : forall m r, G m r (fun _ st => XOk (st, r)).
  Proof. intros m r. exists 0. intros fuel _ st H. exists st. split; [exact H|reflexivity]. Qed.
  Lemma G_ext : forall m r (x y : nat -> xst -> xres (xst * str)), (forall f st, y f st = x f st) -> G m r x -> G m r y.
  Proof. intros m r x y E [F H]. exists F. intros fuel Hf st Hst. rewrite E. apply H; assumption. Qed.
  Lemma G_S : forall m r (x : nat -> xst -> xres (xst * str)), G m r (fun f => x (S f)) -> G m r x.
  Proof.
    intros m r x [F H]. exists (S F). intros fuel Hf. destruct fuel as [|fuel]; [lia|]. apply H. lia.
  Qed.
  Lemma G_pre : forall m r s x, G m r x -> G m (s ++ r) (fun f st => prefixed s (x f st)).
  Proof.
    intros m r s x [F H]. exists F. intros fuel Hf st Hst. destruct (H fuel Hf st Hst) as [st' [M E]]. exists st'. rewrite E. split; [exact M|reflexivity].
  Qed.
  Lemma G_up : forall m r x, G m r x -> G m r (fun f => x (S f)).
  Proof. intros m r x [F H]. exists F. intros fuel Hf. apply H. lia. Qed.

  Lemma pushed_scope1 : forall n w c, pushed [(n, simple_var w)] c = scope_of [(n, w)] :: c.
  Proof. reflexivity. Qed.
  Lemma pushed_scope : forall (argv : list str) n c,
    pushed (map (fun i => (show_nat i, simple_var (nth i argv []))) (seq 0 n)) c
    = scope_of (map (fun i => (show_nat i, nth i argv [])) (seq 0 n)) :: c.
  Proof. intros. unfold pushed, scope_of. rewrite map_map. reflexivity. Qed.

  Lemma b_if : forall rec d c st e (l : list str), f_kind e = KIf -> f_min e <= length l -> l <> [] ->
    builtin ftab rec d c st e l = func_if rec c st l.
  Proof.
    intros rec d c st e l Hk Hm Hn. apply Nat.ltb_ge in Hm. destruct d; cbn [builtin]; rewrite Hm; (destruct l as [|a l]; [congruence|]); rewrite Hk; reflexivity.
  Qed.
  Lemma b_or : forall rec d c st e (l : list str), f_kind e = KOr -> f_min e <= length l -> l <> [] ->
    builtin ftab rec d c st e l = func_or rec c st l.
  Proof.
    intros rec d c st e l Hk Hm Hn. apply Nat.ltb_ge in Hm. destruct d; cbn [builtin]; rewrite Hm; (destruct l as [|a l]; [congruence|]); rewrite Hk; reflexivity.
  Qed.
  Lemma b_and : forall rec d c st e (l : list str), f_kind e = KAnd -> f_min e <= length l -> l <> [] ->
    builtin ftab rec d c st e l = func_and rec c st l.
  Proof.
    intros rec d c st e l Hk Hm Hn. apply Nat.ltb_ge in Hm. destruct d; cbn [builtin]; rewrite Hm; (destruct l as [|a l]; [congruence|]); rewrite Hk; reflexivity.
  Qed.
  Lemma b_foreach : forall rec d c st e (l : list str), f_kind e = KForeach -> f_min e <= length l -> l <> [] ->
    builtin ftab rec d c st e l = func_foreach rec c st l.
  Proof.
    intros rec d c st e l Hk Hm Hn. apply Nat.ltb_ge in Hm. destruct d; cbn [builtin]; rewrite Hm; (destruct l as [|a l]; [congruence|]); rewrite Hk; reflexivity.
  Qed.
  Lemma b_value : forall rec d c st e a, f_kind e = KValue -> f_min e <= 1 ->
    builtin ftab rec d c st e [a] = XOk (st, match lookup_variable a c with Some (_, v) => v_value v | None => [] end).
  Proof.
    intros rec d c st e a Hk Hm. assert (E : (length [a] <? f_min e) = false) by (apply Nat.ltb_ge; exact Hm).
    destruct d; cbn [builtin]; rewrite E, Hk; reflexivity.
  Qed.
  Definition b_origin_result (c : chain) (st : xst) (a : str) : xres (xst * str) :=
    match lookup_variable a c with
    | None => XOk (st, s2l "undefined")
    | Some (_, v) => match origin_name (v_origin v) with Some s => XOk (st, s) | None => XFail XFunc end
    end.
  Lemma b_origin : forall rec d c st e a, f_kind e = KOrigin -> f_min e <= 1 ->
    builtin ftab rec d c st e [a] = b_origin_result c st a.
  Proof.
    intros rec d c st e a Hk Hm. assert (E : (length [a] <? f_min e) = false) by (apply Nat.ltb_ge; exact Hm).
    destruct d; cbn [builtin]; rewrite E, Hk; reflexivity.
  Qed.
  Definition b_flavor_result (c : chain) (st : xst) (a : str) : xres (xst * str) :=
    XOk (st, match lookup_variable a c with
             | None => s2l "undefined"
             | Some (_, v) => if v_recursive v then s2l "recursive" else s2l "simple"
             end).
  Lemma b_flavor : forall rec d c st e a, f_kind e = KFlavor -> f_min e <= 1 ->
    builtin ftab rec d c st e [a] = b_flavor_result c st a.
  Proof.
    intros rec d c st e a Hk Hm. assert (E : (length [a] <? f_min e) = false) by (apply Nat.ltb_ge; exact Hm).
    destruct d; cbn [builtin]; rewrite E, Hk; reflexivity.
  Qed.
  Lemma b_pure : forall rec d c st e f (l : list str), f_kind e = KPure f -> f_min e <= length l -> l <> [] ->
    builtin ftab rec d c st e l = match f l with Some s => XOk (st, s) | None => XFail XFunc end.
  Proof.
    intros rec d c st e f l Hk Hm Hn. apply Nat.ltb_ge in Hm. destruct d; cbn [builtin]; rewrite Hm; (destruct l as [|a l]; [congruence|]); rewrite Hk; reflexivity.
  Qed.

  Lemma builtin_user : forall fuel c st e f (xs : list str), f_kind e = KCall -> no_space f -> f <> [] ->
    length f < 256 -> ftab f = None -> f_min e <= S (length xs) ->
    builtin ftab (X fuel) (length (f :: xs)) c st e (f :: xs) =
    match lookup_variable f c with
    | None => XOk (st, [])
    | Some (id, v) =>
        match v_value v with
        | [] => XOk (st, [])
        | _ =>
            let n := Nat.max (S (length xs)) (x_max st) in
            xbind (X fuel (pushed (map (fun i => (show_nat i, simple_var (nth i (f :: xs) []))) (seq 0 n)) c)
                     (set_max (set_count st id f exp_count_max) n) (c_dollar :: c_lparen :: f ++ [c_rparen]))
              (fun '(st', s) => XOk (set_count (set_max st' (x_max st)) id f 0, s))
        end
    end.
  Proof.
    intros fuel c st e f xs Hk Hs Hn Hl Hf Hmin. cbn [length builtin].
    assert (Lt : (S (length xs) <? f_min e) = false) by (apply Nat.ltb_ge; exact Hmin). rewrite Lt, Hk.
    assert (N : next_token f = f). { destruct f as [|x f]; [reflexivity|]. apply next_token_stop. apply Hs. left. reflexivity. }
    rewrite N.
    assert (E : fst (end_of_token f) = f).
    { clear - Hs. induction f as [|x f IH]; [reflexivity|]. cbn [end_of_token]. rewrite (Hs x) by (left; reflexivity).
      destruct (end_of_token f) as [w r]. cbn [fst] in *. f_equal. apply IH. intros y Hy. apply Hs. right. exact Hy. }
    rewrite E, Nat.sub_diag. cbn [firstn app].
    assert (LF : lookup_function ftab f = None).
    { unfold lookup_function. destruct (span is_userfunc f) as [a b] eqn:Sp. destruct (span_spec _ _ _ _ Sp) as [Ef _].
      destruct a as [|a0 a1]; [reflexivity|]. destruct b as [|b0 b1].
      - rewrite app_nil_r in Ef. subst f. rewrite Nat.mod_small by exact Hl. rewrite firstn_all, Hf. reflexivity.
      - assert (K : isspace b0 = false) by (apply Hs; rewrite Ef, in_app_iff; right; left; reflexivity). rewrite K. reflexivity. }
    rewrite LF. destruct f as [|f0 f1]; [congruence|].
    destruct (lookup_variable (f0 :: f1) c) as [[id v]|]; [|reflexivity]. destruct (v_value v); reflexivity.
  Qed.

  Lemma ev_sound : forall m c t r, ev ftab m c t r -> Pev m c t r.
  Proof.
    apply (ev_i ftab (fun m c t r _ => Pev m c t r) (fun m c n r _ => Pref m c n r)
             (fun m c n l w r _ => Papp m c n l w r) (fun m c v r _ => Ptext m c v r) (fun m c n r _ => Pvar m c n r) (fun m c e l r _ => Pfun m c e l r)
             (fun m c l xs _ => Pevs m c l xs) (fun m c l r _ => Por m c l r) (fun m c l r _ => Pand m c l r)
             (fun m c n body ws rs _ => Peach m c n body ws rs)).
    - (* nil *) intros m c. apply G_S. apply (G_ext m [] (fun _ st => XOk (st, []))); [reflexivity|apply G_ret].
    - (* text *) intros m c a t r Ha _ IH. apply G_S. apply (G_ext _ _ (fun f st => prefixed a (X (S f) c st t))).
      + intros. apply step_text. exact Ha.
      + apply G_pre. apply (G_up _ _ (fun f st => X f c st t)). exact IH.
    - (* dollar *) intros m c t r _ IH. apply G_S. apply (G_ext _ _ (fun f st => prefixed [c_dollar] (X (S f) c st t))).
      + intros. apply step_dollar.
      + apply (G_pre m r [c_dollar]). apply (G_up _ _ (fun f st => X f c st t)). exact IH.
    - (* last *) intros m c. apply G_S. apply (G_ext m [c_dollar] (fun _ st => XOk (st, [c_dollar]))); [reflexivity|apply G_ret].
    - (* char *) intros m c x v t r H1 H2 H3 _ IHv _ IH. apply G_S.
      apply (G_ext _ _ (fun f st => xbind (reference_variable false (X f) c st [x]) (fun '(st, s) => prefixed s (X (S f) c st t)))).
      + intros. apply step_char; assumption.
      + apply (G_bind m v _ _ (fun f st => prefixed v (X (S f) c st t))); [exact IHv|reflexivity|].
        apply G_pre. apply (G_up _ _ (fun f st => X f c st t)). exact IH.
    - (* ref *) intros m c op cl n v t r B [N1 [N2 [N3 N4]]] _ IHv _ IH. apply G_S.
      destruct (user_not_close op cl B) as [B1 [B2 _]].
      apply (G_ext _ _ (fun f st => xbind (full_reference false (X f) c st n) (fun '(st, s) => prefixed s (X (S f) c st t)))).
      + intros. apply step_ref; [exact B| |exact N3|exact N2]. apply no_function; assumption.
      + apply (G_bind m v _ _ (fun f st => prefixed v (X (S f) c st t))); [|reflexivity|].
        * apply (G_ext _ _ (fun f st => reference_variable false (X f) c st n)); [|exact IHv]. intros. apply full_plain. exact N4.
        * apply G_pre. apply (G_up _ _ (fun f st => X f c st t)). exact IH.
    - (* computed *) intros m c op cl pre post n v t r B Hne Hcl Hs _ IHn Hcol _ IHv _ IH. apply G_S.
      apply (G_ext _ _ (fun f st => xbind (X f c st (pre ++ c_dollar :: post)) (fun '(st, n) =>
        xbind (full_reference false (X f) c st n) (fun '(st, s) => prefixed s (X (S f) c st t))))).
      + intros. apply step_computed; assumption.
      + apply (G_bind m n _ _ (fun f st => xbind (full_reference false (X f) c st n) (fun '(st, s) => prefixed s (X (S f) c st t))));
          [exact IHn|reflexivity|].
        apply (G_bind m v _ _ (fun f st => prefixed v (X (S f) c st t))); [|reflexivity|].
        * apply (G_ext _ _ (fun f st => reference_variable false (X f) c st n)); [|exact IHv]. intros. apply full_plain. exact Hcol.
        * apply G_pre. apply (G_up _ _ (fun f st => X f c st t)). exact IH.
    - (* subst *) intros m c op cl n a b v u t r B [N1 [N2 [N3 N4]]] Hd Hcl He _ [Hap IHv] Hp Hsub _ IH. apply G_S.
      destruct (user_not_close op cl B) as [B1 [B2 [B3 [B4 [B5 [B6 [B7 [B8 [B9 B10]]]]]]]]].
      assert (C1 : c_colon <> cl) by (destruct B as [[-> ->]|[-> ->]]; discriminate).
      assert (C2 : c_eq <> cl) by (destruct B as [[-> ->]|[-> ->]]; discriminate).
      rewrite in_app_iff in Hd, Hcl.
      apply (G_ext _ _ (fun f st => xbind (full_reference false (X f) c st (n ++ c_colon :: a ++ c_eq :: b)) (fun '(st, s) => prefixed s (X (S f) c st t)))).
      + intros. apply step_ref; [exact B| | |].
        * rewrite <- app_assoc. cbn [app]. apply no_function; [exact N1|reflexivity|reflexivity].
        * rewrite in_app_iff. cbn [In]. rewrite in_app_iff. cbn [In]. intuition congruence.
        * rewrite in_app_iff. cbn [In]. rewrite in_app_iff. cbn [In]. intuition discriminate.
      + apply (G_bind m u _ _ (fun f st => prefixed u (X (S f) c st t))); [|reflexivity|].
        * apply (G_ext _ _ (fun f st => xbind (reference_variable false (X f) c st n) (fun '(st, value) =>
            match subst_ref value a b with Some s => XOk (st, s) | None => XFuel end))).
          { intros. apply full_subst; assumption. }
          apply (G_bind m v _ _ (fun f st => XOk (st, u))); [exact IHv| |apply G_ret].
          intros f st. cbv beta iota. rewrite subst_ref_plain by exact Hp. rewrite Hsub. reflexivity.
        * apply G_pre. apply (G_up _ _ (fun f st => X f c st t)). exact IH.
    - (* call *) intros m c op cl name e args v t r B Hn He Ha Hmin _ IHf _ IH. apply G_S.
      apply (G_ext _ _ (fun f st => xbind (run_args ftab (X f) c st e args) (fun '(st, s) => prefixed s (X (S f) c st t)))).
      + intros. apply step_call; assumption.
      + apply (G_bind m v _ _ (fun f st => prefixed v (X (S f) c st t))); [exact (IHf (proj1 Ha) Hmin)|reflexivity|].
        apply G_pre. apply (G_up _ _ (fun f st => X f c st t)). exact IH.
    - (* reference *) intros m c n r _ [_ IH]. exact IH.
    - (* appended *) intros m c n id v r H Ha Hr _ IH.
      apply (G_ext _ _ (fun f st => variable_append (X f) c st n true c)); [|exact IH].
      intros. unfold reference_variable. rewrite H, Ha, Hr. unfold recursively_expand. rewrite Ha. destruct (v_value v); reflexivity.
    - (* no scope *) intros m c n local. apply (G_ext _ _ (fun _ st => XOk (st, []))); [reflexivity|apply G_ret].
    - (* skipped *) intros m c n local nd w r H _ IH.
      apply (G_ext _ _ (fun f st => variable_append (X f) c st n (local && negb (n_parent nd)) w)); [|exact IH].
      intros. cbn [variable_append]. destruct (set_find n (n_set nd)) as [v|]; [|reflexivity].
      destruct (H v eq_refl) as [-> ->]. reflexivity.
    - (* outermost *) intros m c n local nd w v r H Hp Ha _ IH.
      apply (G_ext _ _ (fun f st => if v_recursive v then X f c st (v_value v) else XOk (st, v_value v))); [|exact IH].
      intros. cbn [variable_append]. rewrite H, Ha. cbn [xbind].
      assert (E : negb local && v_private v = false) by (destruct (v_private v); [rewrite (Hp eq_refl)|destruct local]; reflexivity).
      rewrite E. destruct (v_recursive v); [|reflexivity]. unfold xbind. destruct (X f c st (v_value v)) as [[st' x]| |]; reflexivity.
    - (* more *) intros m c n local nd w v outer r H Hp Ha _ IHo _ IHt.
      apply (G_ext _ _ (fun f st => xbind (variable_append (X f) c st n (local && negb (n_parent nd)) w)
        (fun '(st, buf) => prefixed (match buf with [] => [] | _ => buf ++ [c_sp] end)
           (if v_recursive v then X f c st (v_value v) else XOk (st, v_value v))))).
      { intros. cbn [variable_append]. rewrite H, Ha.
        assert (E : negb local && v_private v = false) by (destruct (v_private v); [rewrite (Hp eq_refl)|destruct local]; reflexivity).
        rewrite E. unfold xbind. destruct (variable_append (X f) c st n (local && negb (n_parent nd)) w) as [[st' buf]| |]; try reflexivity.
        destruct (v_recursive v); [|reflexivity]. destruct (X f c st' (v_value v)) as [[st2 x]| |]; reflexivity. }
      apply (G_bind m outer _ _ (fun f st => prefixed (match outer with [] => [] | _ => outer ++ [c_sp] end)
           (if v_recursive v then X f c st (v_value v) else XOk (st, v_value v)))); [exact IHo|reflexivity|].
      replace (match outer with [] => r | _ :: _ => outer ++ c_sp :: r end)
        with ((match outer with [] => [] | _ => outer ++ [c_sp] end) ++ r)
        by (destruct outer; [reflexivity|rewrite <- app_assoc; reflexivity]).
      apply G_pre. exact IHt.
    - (* recursive text *) intros m c v r Hr _ IH. unfold Ptext. rewrite Hr. exact IH.
    - (* simple text *) intros m c v Hr. unfold Ptext. rewrite Hr. apply G_ret.
    - (* no variable *) intros m c n H. split; [intros id v E; congruence|].
      apply (G_ext _ _ (fun _ st => XOk (st, []))); [|apply G_ret]. intros. unfold reference_variable. rewrite H. reflexivity.
    - (* simple *) intros m c n id v H Ha Hr. split; [intros id' v' E; congruence|].
      apply (G_ext _ _ (fun _ st => XOk (st, v_value v))); [|apply G_ret]. intros. unfold reference_variable. rewrite H, Ha, Hr.
      destruct (v_value v); reflexivity.
    - (* recursive *) intros m c n id v r H Ha Hr _ IH. split; [intros id' v' E; congruence|].
      apply (G_ext _ _ (fun f st => match v_value v with [] => XOk (st, []) | _ => X f c st (v_value v) end)).
      + intros. unfold reference_variable. rewrite H, Ha, Hr. unfold recursively_expand. rewrite Ha. destruct (v_value v); reflexivity.
      + unfold Pev in IH. destruct (v_value v) as [|y l] eqn:E; [|exact IH].
        destruct IH as [F HF]. exists 0. intros fuel _ st Hst. destruct (HF (S F) ltac:(lia) st Hst) as [st' [M E']].
        rewrite X_nil in E'. inversion E'; subst. exists st'. split; [exact M|reflexivity].
    - (* pure *) intros m c e f args xs r Hk _ [HL [F HF]] Hf Hne Hmin. exists F. intros fuel Hfu st Hst. unfold run_args, f_expand. rewrite Hk.
      destruct (HF fuel Hfu st Hst) as [st' [M E]]. rewrite E. cbn [xbind]. exists st'. split; [exact M|].
      assert (Lt : (length xs <? f_min e) = false) by (apply Nat.ltb_ge; lia).
      destruct xs as [|x xs]; [destruct args; [congruence|discriminate]|].
      rewrite (b_pure _ _ _ _ _ _ _ Hk) by (try discriminate; lia). rewrite Hf. reflexivity.
    - (* if *) intros m c e cond cond' s th rest r Hk Hrest Ht _ IHc _ IHb _ Hmin.
      apply (G_ext _ _ (fun f st => func_if (X f) c st (cond :: th :: rest))).
      { intros. unfold run_args, f_expand. rewrite Hk. apply b_if; [exact Hk|exact Hmin|discriminate]. }
      unfold func_if. rewrite (trim_strip _ _ Ht).
      assert (C : exists F, forall fuel, F <= fuel -> forall st, x_max st = m -> exists st', x_max st' = m /\
        match cond' with [] => XOk (st, false) | y :: l => xbind (X fuel c st (y :: l)) (fun '(st, s) => XOk (st, match s with [] => false | _ => true end)) end
        = XOk (st', match s with [] => false | _ => true end)).
      { destruct IHc as [F HF]. exists F. intros fuel Hf st Hst. destruct cond' as [|y l].
        - destruct (HF (S fuel) ltac:(lia) st Hst) as [st' [M E]]. rewrite X_nil in E. inversion E; subst. exists st'. split; [exact M|reflexivity].
        - destruct (HF fuel Hf st Hst) as [st' [M E]]. rewrite E. exists st'. split; [exact M|reflexivity]. }
      destruct C as [F1 C]. destruct IHb as [F2 HB]. exists (Nat.max F1 F2). intros fuel Hf st Hst.
      destruct (C fuel ltac:(lia) st Hst) as [st1 [M1 E1]]. rewrite E1. cbn [xbind].
      destruct s as [|y l].
      + destruct rest as [|el [|z rest]]; cbn [nth_error hd length] in *.
        * destruct (HB (S fuel) ltac:(lia) st1 M1) as [st' [M E]]. rewrite X_nil in E. inversion E; subst. exists st'. split; [exact M|reflexivity].
        * apply HB; [lia|exact M1].
        * lia.
      + cbn [nth_error]. apply HB; [lia|exact M1].
    - (* or *) intros m c e args r Hk _ IH Hne Hmin. apply (G_ext _ _ (fun f st => func_or (X f) c st args)); [|exact IH].
      intros. unfold run_args, f_expand. rewrite Hk. apply b_or; assumption.
    - (* and *) intros m c e args r Hk _ IH Hne Hmin. apply (G_ext _ _ (fun f st => func_and (X f) c st args)); [|exact IH].
      intros. unfold run_args, f_expand. rewrite Hk. apply b_and; assumption.
    - (* foreach *) intros m c e v n l ws body rs Hk _ IHv _ IHl _ [_ IHe] _ Hmin.
      apply (G_ext _ _ (fun f st => func_foreach (X f) c st [v; l; body])).
      { intros. unfold run_args, f_expand. rewrite Hk. apply b_foreach; [exact Hk|exact Hmin|discriminate]. }
      unfold func_foreach.
      apply (G_bind m n _ _ (fun f st => xbind (X f c st l) (fun '(st0, lst) =>
            match each_token (fun ws w => ws ++ [w]) [] lst with
            | None => XFuel
            | Some ws => foreach_loop (X f) c (fst (end_of_token (next_token n))) body st0 ws
            end))); [exact IHv|reflexivity|].
      apply (G_bind m ws _ _ (fun f st => foreach_loop (X f) c (hd [] (words n)) body st (words ws))); [exact IHl| |exact IHe].
      intros f st. cbv beta iota. rewrite each_token_words.
      assert (W : forall (l acc : list str), fold_left (fun ws w => ws ++ [w]) l acc = acc ++ l).
      { clear. induction l as [|x l IH]; intros acc; cbn [fold_left]; [rewrite app_nil_r; reflexivity|]. rewrite IH, <- app_assoc. reflexivity. }
      rewrite W. cbn [app].
      assert (E : fst (end_of_token (next_token n)) = hd [] (words n)).
      { rewrite <- func_firstword_spec. unfold func_firstword, find_next_token. destruct (next_token n) as [|y q] eqn:Q; [reflexivity|].
        rewrite <- Q. destruct (end_of_token (next_token n)). reflexivity. }
      rewrite E. reflexivity.
    - (* value *) intros m c e a n Hk _ IH _ Hmin.
      apply (G_ext _ _ (fun f st => xbind (X f c st a) (fun '(st, n) => XOk (st, match lookup_variable n c with Some (_, v) => v_value v | None => [] end)))).
      { intros. unfold run_args, f_expand. rewrite Hk. cbn [expand_args]. destruct (X f c st a) as [[st' s]| |]; cbn [xbind]; [|reflexivity|reflexivity].
        apply b_value; [exact Hk|exact Hmin]. }
      apply (G_bind m n _ _ (fun f st => XOk (st, match lookup_variable n c with Some (_, v) => v_value v | None => [] end)));
        [exact IH|reflexivity|apply G_ret].
    - (* origin *) intros m c e a n Hk _ IH Hw _ Hmin.
      apply (G_ext _ _ (fun f st => xbind (X f c st a) (fun '(st, n) => b_origin_result c st n))).
      { intros. unfold run_args, f_expand. rewrite Hk. cbn [expand_args]. destruct (X f c st a) as [[st' s]| |]; cbn [xbind]; [|reflexivity|reflexivity].
        apply b_origin; [exact Hk|exact Hmin]. }
      apply (G_bind m n _ _ (fun f st => XOk (st, s2l (match lookup_variable n c with Some (_, v) => origin_word (v_origin v) | None => "undefined" end))));
        [exact IH| |apply G_ret].
      intros f st. unfold b_origin_result. destruct (lookup_variable n c) as [[id v]|]; [|reflexivity].
      specialize (Hw id v eq_refl). destruct (v_origin v); try reflexivity; exfalso; apply Hw; reflexivity.
    - (* flavor *) intros m c e a n Hk _ IH _ Hmin.
      apply (G_ext _ _ (fun f st => xbind (X f c st a) (fun '(st, n) => b_flavor_result c st n))).
      { intros. unfold run_args, f_expand. rewrite Hk. cbn [expand_args]. destruct (X f c st a) as [[st' s]| |]; cbn [xbind]; [|reflexivity|reflexivity].
        apply b_flavor; [exact Hk|exact Hmin]. }
      apply (G_bind m n _ _ (fun f st => XOk (st, s2l (match lookup_variable n c with Some (_, v) => if v_recursive v then "recursive" else "simple" | None => "undefined" end))));
        [exact IH| |apply G_ret].
      intros f st. unfold b_flavor_result. destruct (lookup_variable n c) as [[id v]|]; [|reflexivity].
      destruct (v_recursive v); reflexivity.
    - (* call, undefined *) intros m c e args f xs Hk _ [HL [F HF]] [N1 [N2 [N3 N4]]] Hfn Hfl Hft Hlk Hne Hmin.
      exists F. intros fuel Hfu st Hst. unfold run_args, f_expand. rewrite Hk.
      destruct (HF fuel Hfu st Hst) as [st' [M E]]. rewrite E. cbn [xbind]. exists st'. split; [exact M|].
      rewrite (builtin_user fuel c st' e f xs) by (try assumption; cbn [length] in *; lia).
      rewrite Hlk. reflexivity.
    - (* call *) intros m c e args f xs r Hk _ [HL [F HF]] [N1 [N2 [N3 N4]]] Hfn Hfl Hft [id [v [Hlk Hv]]] _ [Hap [F2 IHv]] Hne Hmin.
      exists (Nat.max F (S F2)). intros fuel Hfu st Hst. unfold run_args, f_expand. rewrite Hk.
      destruct (HF fuel ltac:(lia) st Hst) as [st' [M E]]. rewrite E. cbn [xbind].
      rewrite (builtin_user fuel c st' e f xs) by (try assumption; cbn [length] in *; lia).
      rewrite Hlk. destruct (v_value v) as [|y l] eqn:Ev; [congruence|].
      cbv zeta. rewrite M. set (n := Nat.max (S (length xs)) m) in *.
      set (st1 := set_max (set_count st' id f exp_count_max) n).
      destruct fuel as [|fuel]; [lia|].
      change (c_dollar :: c_lparen :: f ++ [c_rparen]) with (c_dollar :: c_lparen :: f ++ c_rparen :: []).
      rewrite step_ref; [|left; split; reflexivity|apply no_function; [exact N1|reflexivity|reflexivity]|exact N3|exact N2].
      rewrite full_plain by exact N4. rewrite pushed_scope.
      destruct (IHv fuel ltac:(lia) st1 eq_refl) as [st2 [M2 E2]]. rewrite E2. cbn [xbind]. rewrite X_nil. cbn [prefixed xbind].
      eexists. split; [|rewrite app_nil_r; reflexivity]. reflexivity.
    - (* no arguments *) intros m c. split; [reflexivity|]. exists 0. intros fuel _ st Hst. exists st. split; [exact Hst|reflexivity].
    - (* arguments *) intros m c a l x xs _ [F1 H1] _ [HL [F2 H2]]. split; [cbn [length]; congruence|].
      exists (Nat.max F1 F2). intros fuel Hf st Hst. cbn [expand_args].
      destruct (H1 fuel ltac:(lia) st Hst) as [st1 [M1 E1]]. rewrite E1. cbn [xbind].
      destruct (H2 fuel ltac:(lia) st1 M1) as [st2 [M2 E2]]. rewrite E2. cbn [xbind]. exists st2. split; [exact M2|reflexivity].
    - (* or: none *) intros m c. apply (G_ext _ _ (fun _ st => XOk (st, []))); [reflexivity|apply G_ret].
    - (* or: empty *) intros m c a a' l r Ht _ [F1 H1] _ [F2 H2]. exists (Nat.max F1 F2). intros fuel Hf st Hst. cbn [func_or].
      rewrite (trim_strip _ _ Ht). destruct a' as [|y q]; [apply H2; [lia|exact Hst]|].
      destruct (H1 fuel ltac:(lia) st Hst) as [st1 [M1 E1]]. rewrite E1. cbn [xbind]. apply H2; [lia|exact M1].
    - (* or: found *) intros m c a a' l r Ht _ [F1 H1] Hr. exists F1. intros fuel Hf st Hst. cbn [func_or].
      rewrite (trim_strip _ _ Ht). destruct a' as [|y q].
      + destruct (H1 (S fuel) ltac:(lia) st Hst) as [st1 [M1 E1]]. rewrite X_nil in E1. congruence.
      + destruct (H1 fuel ltac:(lia) st Hst) as [st1 [M1 E1]]. rewrite E1. cbn [xbind]. destruct r as [|z r]; [congruence|].
        exists st1. split; [exact M1|reflexivity].
    - (* and: last *) intros m c a a' r Ht _ [F1 H1]. exists F1. intros fuel Hf st Hst. cbn [func_and].
      rewrite (trim_strip _ _ Ht). destruct a' as [|y q].
      + destruct (H1 (S fuel) ltac:(lia) st Hst) as [st1 [M1 E1]]. rewrite X_nil in E1. inversion E1; subst. exists st1. split; [exact M1|reflexivity].
      + destruct (H1 fuel ltac:(lia) st Hst) as [st1 [M1 E1]]. rewrite E1. cbn [xbind]. exists st1. split; [exact M1|]. destruct r; reflexivity.
    - (* and: empty *) intros m c a a' l Ht _ [F1 H1]. exists F1. intros fuel Hf st Hst. cbn [func_and].
      rewrite (trim_strip _ _ Ht). destruct a' as [|y q]; [exists st; split; [exact Hst|reflexivity]|].
      destruct (H1 fuel ltac:(lia) st Hst) as [st1 [M1 E1]]. rewrite E1. cbn [xbind]. exists st1. split; [exact M1|reflexivity].
    - (* and: more *) intros m c a a' l s r Ht _ [F1 H1] Hs Hl _ [F2 H2]. exists (Nat.max F1 F2). intros fuel Hf st Hst.
      destruct l as [|b l]; [congruence|]. remember (b :: l) as bl. cbn [func_and].
      rewrite (trim_strip _ _ Ht). destruct a' as [|y q].
      + destruct (H1 (S fuel) ltac:(lia) st Hst) as [st1 [M1 E1]]. rewrite X_nil in E1. congruence.
      + destruct (H1 fuel ltac:(lia) st Hst) as [st1 [M1 E1]]. rewrite E1. cbn [xbind]. destruct s as [|z s]; [congruence|].
        subst bl. apply H2; [lia|exact M1].
    - (* each: none *) intros m c n body. split; [reflexivity|]. apply (G_ext _ _ (fun _ st => XOk (st, []))); [reflexivity|apply G_ret].
    - (* each *) intros m c n body w ws r rs _ [F1 H1] _ [HL [F2 H2]]. split; [cbn [length]; congruence|].
      exists (Nat.max F1 F2). intros fuel Hf st Hst. cbn [foreach_loop]. rewrite pushed_scope1.
      destruct (H1 fuel ltac:(lia) st Hst) as [st1 [M1 E1]]. rewrite E1. cbn [xbind].
      destruct (H2 fuel ltac:(lia) st1 M1) as [st2 [M2 E2]]. rewrite E2. cbn [xbind]. exists st2. split; [exact M2|].
      destruct ws as [|w' ws]; destruct rs as [|r' rs]; try discriminate; cbn [unwords]; [rewrite app_nil_r|]; reflexivity.
  Qed.
End Sound.
