From Verif Require Import Base M_Quote S_Text M_Text P_Text M_Path M_Var P_Var M_Expand S_Expand P_Expand M_FuncTab S_Eval P_Eval Properties_Expand.
Open Scope string_scope.
Open Scope list_scope.
Open Scope nat_scope.

(** ** C44, C45: the expander computes what the rules of S_Eval say *)

(** If the rules give a text a value, expansion (without the self-reference check) gives it. *)
Theorem C44_expansion_follows_the_rules :
  forall ftab c t r, ev ftab 0 c t r ->
  exists F, forall fuel, F <= fuel -> exists st, expand ftab false fuel c st0 t = XOk (st, r).
Proof.
  intros ftab c t r H. destruct (ev_sound ftab 0 c t r H) as [F G]. exists F. intros fuel Hf.
  destruct (G fuel Hf st0 eq_refl) as [st [_ E]]. exists st. exact E.
Qed.
Print Assumptions C44_expansion_follows_the_rules.

(** With the check nothing else can come out; only a report of a self reference is possible. *)
Theorem C44_checked_expansion_follows_the_rules :
  forall ftab c t r, ev ftab 0 c t r ->
  exists F, forall fuel, F <= fuel ->
    (exists st, expand ftab true fuel c st0 t = XOk (st, r)) \/
    (exists i n, expand ftab true fuel c st0 t = XFail (XSelf i n)) \/
    expand ftab true fuel c st0 t = XFuel.
Proof.
  intros ftab c t r H. destruct (C44_expansion_follows_the_rules ftab c t r H) as [F G]. exists F. intros fuel Hf.
  destruct (G fuel Hf) as [st E]. destruct (C13_check_is_transparent ftab fuel c t) as [T1 T2].
  destruct (expand ftab true fuel c st0 t) as [[st' s]|e|] eqn:R; [left|right; left|right; right; reflexivity].
  - destruct (T1 _ _ eq_refl) as [st2 E2]. rewrite E in E2. inversion E2; subst. exists st'. reflexivity.
  - destruct e as [| | |i n| |] eqn:Ee; try (specialize (T2 e); subst e; rewrite E in T2; discriminate (T2 ltac:(discriminate) eq_refl)).
    exists i, n. reflexivity.
Qed.
Print Assumptions C44_checked_expansion_follows_the_rules.

(** Without $(call) and $(foreach) it does come out. *)
Theorem C44_checked_expansion_gives_the_value :
  forall ftab, no_call ftab -> no_foreach ftab -> forall c t r, ev ftab 0 c t r ->
  exists F, forall fuel, F <= fuel -> expand ftab true fuel c st0 t = XOk (st0, r).
Proof.
  intros ftab NC NF c t r H. destruct (C44_checked_expansion_follows_the_rules ftab c t r H) as [F G].
  destruct (C44_expansion_follows_the_rules ftab c t r H) as [F' G'].
  exists (Nat.max F (S (length t + length (rec_keys c) * S (longest c)))). intros fuel Hf.
  destruct (G fuel ltac:(lia)) as [[st E]|[[i [n E]]|E]].
  - destruct (C13_expansion_ends ftab NC c t fuel ltac:(lia)) as [[s E2]|[e E2]]; congruence.
  - destruct (G' F' (Nat.le_refl _)) as [st E2].
    rewrite (proj1 (C13_report_iff_endless ftab NC NF c t) (ex_intro _ fuel (ex_intro _ i (ex_intro _ n E)))) in E2. discriminate.
  - destruct (C13_expansion_ends ftab NC c t fuel ltac:(lia)) as [[s E2]|[e E2]]; congruence.
Qed.
Print Assumptions C44_checked_expansion_gives_the_value.

(** The rules never give two values to a text. *)
Theorem C44_value_unique :
  forall ftab c t r r', ev ftab 0 c t r -> ev ftab 0 c t r' -> r = r'.
Proof.
  intros ftab c t r r' H H'.
  destruct (C44_expansion_follows_the_rules _ _ _ _ H) as [F G]. destruct (C44_expansion_follows_the_rules _ _ _ _ H') as [F' G'].
  destruct (G (Nat.max F F') ltac:(lia)) as [st E]. destruct (G' (Nat.max F F') ltac:(lia)) as [st' E']. congruence.
Qed.
Print Assumptions C44_value_unique.

(** The rules apply: a user-defined function swapping its arguments, used under $(if) with a
    variable as the condition, followed by a computed name. *)
Definition ex_chain : chain :=
  [mknode 1 [(s2l "rev", var_of (s2l "$2$1") true); (s2l "b", var_of (s2l "1") true); (s2l "x1", var_of (s2l "q") false)] false].
Ltac plain := split; [|split; [|split]]; [apply Forall_forall; repeat constructor| | |];
  intros K; repeat (destruct K as [K|K]; [discriminate|]); destruct K.
Ltac lit := match goal with |- ~ In _ _ => intros K; repeat (destruct K as [K|K]; [discriminate|]); destruct K end.
Ltac chars := intros x K; repeat (destruct K as [<-|K]; [reflexivity|]); destruct K.
Ltac onearg := repeat first [apply oa_nil | apply oa_char; [discriminate|discriminate|discriminate|]].

Example C44_example :
  ev real 0 ex_chain (s2l "-$(call rev,u,v)$(x$(b))") (s2l "-vuq").
Proof.
  apply (ev_text real 0 ex_chain (s2l "-") (s2l "$(call rev,u,v)$(x$(b))") (s2l "vuq")); [lit|].
  apply (ev_call real 0 ex_chain c_lparen c_rparen (s2l "call") (mkfent 1 0 KCall) [s2l "rev"; s2l "u"; s2l "v"] (s2l "vu") (s2l "$(x$(b))") (s2l "q")).
  - left. split; reflexivity.
  - split; [discriminate|]. split; [chars|repeat constructor].
  - vm_compute. reflexivity.
  - split; [discriminate|]. split; [|split; [left; reflexivity|intros x l E; inversion E; subst; reflexivity]].
    intros a [<-|[<-|[<-|[]]]]; onearg.
  - simpl; lia.
  - apply (ef_call real 0 ex_chain (mkfent 1 0 KCall) _ (s2l "rev") [s2l "u"; s2l "v"]).
    + reflexivity.
    + assert (P : forall a, ~ In c_dollar a -> ev real 0 ex_chain a a).
      { intros a Ha. rewrite <- (app_nil_r a). apply ev_text; [exact Ha|apply ev_nil]. }
      repeat first [apply evs_nil | apply evs_cons; [apply P; lit|]].
    + split; [intros x K; repeat (destruct K as [<-|K]; [reflexivity|]); destruct K|]. split; [lit|]. split; lit.
    + discriminate.
    + repeat constructor.
    + vm_compute. reflexivity.
    + eexists _, _. split; [vm_compute; reflexivity|discriminate].
    + eapply evar_rec; [vm_compute; reflexivity|reflexivity|reflexivity|].
      apply (ev_char real _ _ "2"%char (s2l "v") (s2l "$1") (s2l "u")); [discriminate..| |].
      * apply er_var. apply (evar_simple real _ _ (s2l "2") 0 (mkvar (s2l "v") o_automatic false false false false false v_default false)); vm_compute; reflexivity.
      * apply (ev_char real _ _ "1"%char (s2l "u") [] []); [discriminate..| |apply ev_nil].
        apply er_var. apply (evar_simple real _ _ (s2l "1") 0 (mkvar (s2l "u") o_automatic false false false false false v_default false)); vm_compute; reflexivity.
  - apply (ev_computed real 0 ex_chain c_lparen c_rparen (s2l "x") (s2l "(b)") (s2l "x1") (s2l "q") [] []).
    + left. split; reflexivity.
    + apply ne_char; [discriminate|discriminate|]. apply ne_char; [discriminate|discriminate|].
      apply (ne_paren c_lparen c_rparen (s2l "b") []); [apply ne_char; [discriminate|discriminate|apply ne_nil]|apply ne_nil].
    + lit.
    + chars.
    + apply (ev_text real 0 ex_chain (s2l "x") (s2l "$(b)") (s2l "1")); [lit|].
      apply (ev_ref real 0 ex_chain c_lparen c_rparen (s2l "b") (s2l "1") [] []); [left; split; reflexivity| | |apply ev_nil].
      * split; [chars|]. split; [lit|]. split; lit.
      * apply er_var. eapply evar_rec; [vm_compute; reflexivity|reflexivity|reflexivity|].
        apply (ev_text real 0 ex_chain (s2l "1") [] []); [lit|apply ev_nil].
    + lit.
    + apply er_var. apply (evar_simple real 0 ex_chain (s2l "x1") 1 (var_of (s2l "q") false)); vm_compute; reflexivity.
    + apply ev_nil.
Qed.
