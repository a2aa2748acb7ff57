From Verif Require Import Base M_Quote M_Text S_Text P_Text M_Path M_Var P_Var M_Expand S_Expand P_Expand M_FuncTab.
Open Scope string_scope.
Open Scope list_scope.
Open Scope nat_scope.

(** ** C12 *)

(** Whatever functions and variables there are, and whatever is being expanded around it: a
    text with every dollar sign doubled expands to the text itself. *)
Theorem C12_doubled_dollars :
  forall ftab guard fuel c st t,
  expand ftab guard (S fuel) c st (double_dollars t) = XOk (st, t).
Proof.
  intros ftab guard fuel c st t. rewrite <- (app_nil_r (double_dollars t)), expand_double_prefix.
  cbn [expand length scan cut_at app prefixed]. rewrite app_nil_r. reflexivity.
Qed.
Print Assumptions C12_doubled_dollars.

(** Text without a dollar sign expands to itself. *)
Theorem C12_plain_text :
  forall ftab guard fuel c st t, ~ In c_dollar t -> expand ftab guard (S fuel) c st t = XOk (st, t).
Proof. intros. rewrite <- (double_plain t) at 1 by assumption. apply C12_doubled_dollars. Qed.
Print Assumptions C12_plain_text.

(** In front of any other text, quoted text comes out in front of that text's expansion. *)
Theorem C12_quoted_prefix :
  forall ftab guard fuel c st a t st' s,
  expand ftab guard (S fuel) c st t = XOk (st', s) ->
  expand ftab guard (S fuel) c st (double_dollars a ++ t) = XOk (st', a ++ s).
Proof. intros. rewrite expand_double_prefix, H. reflexivity. Qed.
Print Assumptions C12_quoted_prefix.

Definition real : str -> option fent := gmake (fun s => length s) (fun s => length s) (fun l => l) [c_nul] 100 (Some (s2l "/tmp")).
Definition var_of (value : str) (recursive : bool) : var :=
  mkvar value o_file recursive false false false false v_default true.
Definition run (vars : list (string * string)) (t : string) : xres str :=
  match expand real true 40 [mknode 1 (map (fun p => (s2l (fst p), var_of (s2l (snd p)) true)) vars) false] st0 (s2l t) with
  | XOk (_, s) => XOk s | XFail e => XFail e | XFuel => XFuel
  end.

Example C12_example :
  (double_dollars (s2l "a$(b) $") = s2l "a$$(b) $$") /\
  run [("b", "x")] "a$$(b) $$ $(b)" = XOk (s2l "a$(b) $ x").
Proof. split; vm_compute; reflexivity. Qed.

(** ** C13 *)

(** Without $(call), an expansion always ends: with a result, leaving all flags as they were,
    or with an error.  The bound on the nesting depth is explicit. *)
Theorem C13_expansion_ends :
  forall ftab, no_call ftab -> forall c t fuel,
  length t + length (rec_keys c) * S (longest c) < fuel ->
  (exists s, expand ftab true fuel c st0 t = XOk (st0, s)) \/
  (exists e, expand ftab true fuel c st0 t = XFail e).
Proof.
  intros ftab NC c t fuel H.
  pose proof (expand_ends ftab NC (rec_keys c) (longest c) fuel c st0 t (within_chain c) eq_refl) as G.
  assert (L : length t + idle (rec_keys c) st0 * S (longest c) < fuel).
  { pose proof (idle_le (rec_keys c) st0). assert (idle (rec_keys c) st0 * S (longest c) <= length (rec_keys c) * S (longest c)) by (apply Nat.mul_le_mono_r; assumption). lia. }
  specialize (G L). destruct (expand ftab true fuel c st0 t) as [[st s]|e|]; simpl in G; [subst; eauto|eauto|destruct G].
Qed.
Print Assumptions C13_expansion_ends.

(** More depth never changes an outcome. *)
Theorem C13_outcome_independent_of_depth :
  forall ftab guard fuel fuel' c st t, fuel <= fuel' -> expand ftab guard fuel c st t <> XFuel ->
  expand ftab guard fuel' c st t = expand ftab guard fuel c st t.
Proof. exact expand_mono. Qed.
Print Assumptions C13_outcome_independent_of_depth.

(** With any functions, $(call) and $(foreach) included: a result is the one that plain
    expansion without the check gives, and so is any other error. *)
Theorem C13_check_is_transparent :
  forall ftab fuel c t,
  (forall st s, expand ftab true fuel c st0 t = XOk (st, s) -> exists st', expand ftab false fuel c st0 t = XOk (st', s)) /\
  (forall e, (forall i n, e <> XSelf i n) -> expand ftab true fuel c st0 t = XFail e -> expand ftab false fuel c st0 t = XFail e).
Proof.
  intros ftab fuel c t. split.
  - intros st s H. exact (expand_sound ftab fuel c st0 st0 t st s eq_refl H).
  - intros e He H. apply (expand_sound_fail ftab fuel c st0 st0 t e eq_refl); [|exact H].
    destruct e; auto. exact (He _ _ eq_refl).
Qed.
Print Assumptions C13_check_is_transparent.

(** Without $(call) and $(foreach), a self reference is reported exactly when plain expansion
    would never end. *)
Theorem C13_report_iff_endless :
  forall ftab, no_call ftab -> no_foreach ftab -> forall c t,
  (exists fuel i n, expand ftab true fuel c st0 t = XFail (XSelf i n)) <->
  (forall fuel, expand ftab false fuel c st0 t = XFuel).
Proof.
  intros ftab NC NF c t. split.
  - intros [fuel [i [n H]]]. exact (report_endless ftab NC NF c fuel t i n H).
  - intros H. set (fuel := S (length t + length (rec_keys c) * S (longest c))). exists fuel.
    destruct (C13_expansion_ends ftab NC c t fuel ltac:(unfold fuel; lia)) as [[s R]|[e R]].
    + destruct (C13_check_is_transparent ftab fuel c t) as [G _]. destruct (G _ _ R) as [st' G']. rewrite H in G'. discriminate.
    + destruct e as [| | |i n| |] eqn:Ee; try (destruct (C13_check_is_transparent ftab fuel c t) as [_ G];
        specialize (G e); subst e; rewrite H in G; discriminate (G ltac:(discriminate) R)).
      exists i, n. exact R.
Qed.
Print Assumptions C13_report_iff_endless.

(** The tables of the program without $(call), and without $(foreach). *)
Definition real_no_call : str -> option fent :=
  table (filter (fun p => negb (is_call (snd p))) (functions (fun s => length s) (fun s => length s) (fun l => l) [c_nul] 100 None)).
Definition real_plain : str -> option fent :=
  table (filter (fun p => negb (is_call (snd p)) && negb (is_foreach (snd p)))
    (functions (fun s => length s) (fun s => length s) (fun l => l) [c_nul] 100 None)).
Lemma table_in : forall l n e, table l n = Some e -> exists p, In p l /\ snd p = e.
Proof.
  intros l n e H. unfold table in H. destruct (find _ l) as [p|] eqn:F; [|discriminate].
  exists p. split; [exact (proj1 (find_some _ _ F))|congruence].
Qed.
Lemma filtered_call : forall g l, (forall p, g p = true -> is_call (snd p) = false) -> no_call (table (filter g l)).
Proof.
  intros g l G n e H K. destruct (table_in _ _ _ H) as [p [Hp E]]. apply filter_In in Hp. destruct Hp as [_ Hp].
  apply G in Hp. rewrite E in Hp. unfold is_call in Hp. rewrite K in Hp. discriminate.
Qed.
Lemma filtered_foreach : forall g l, (forall p, g p = true -> is_foreach (snd p) = false) -> no_foreach (table (filter g l)).
Proof.
  intros g l G n e H K. destruct (table_in _ _ _ H) as [p [Hp E]]. apply filter_In in Hp. destruct Hp as [_ Hp].
  apply G in Hp. rewrite E in Hp. unfold is_foreach in Hp. rewrite K in Hp. discriminate.
Qed.
Lemma real_no_call_ok : no_call real_no_call.
Proof. apply filtered_call. intros p H. apply negb_true_iff. exact H. Qed.
Lemma real_plain_ok : no_call real_plain /\ no_foreach real_plain.
Proof.
  split; [apply filtered_call|apply filtered_foreach]; intros p H; apply andb_true_iff in H; destruct H; apply negb_true_iff; assumption.
Qed.

Example C13_example :
  (* a chain of references, a cycle through a computed name and a substitution reference, and a
     cycle hidden in a branch that is not taken *)
  run [("a", "$(b) $(b)"); ("b", "<$(c)>"); ("c", "1")] "$(a)" = XOk (s2l "<1> <1>") /\
  run [("a", "$(x$(y))"); ("y", "b"); ("xb", "$(words $(a:.c=.o))")] "-$(a)" = XFail (XSelf 1 (s2l "a")) /\
  run [("a", "$(if $(b),ok,$(a))"); ("b", "1")] "$(a)" = XOk (s2l "ok").
Proof. split; [|split]; vm_compute; reflexivity. Qed.

(** "Exactly" fails with $(foreach): this expansion ends without the check, but is reported. *)
Theorem C13_foreach_overreported_refuted :
  exists c t s st, expand real true 20 c st0 t = XFail (XSelf 1 (s2l "X")) /\ expand real false 20 c st0 t = XOk (st, s).
Proof.
  exists [mknode 1 [(s2l "X", var_of (s2l "$(if $(stop),done,$(foreach stop,1,$(X)))") true)] false], (s2l "$(X)"), (s2l "done").
  eexists. split; vm_compute; reflexivity.
Qed.
Print Assumptions C13_foreach_overreported_refuted.

(** "Never runs forever" fails with $(call): [f = $(call f)] is never reported and never ends. *)
Definition n_f : str := s2l "f".
Definition v_f : var := var_of (s2l "$(call f)") true.
Lemma pow_pred_positive : forall n, 2 ^ (S n) - 1 <> 0.
Proof. intros n. pose proof (Nat.pow_gt_1 2 (S n)). lia. Qed.
Lemma count_max_positive : exp_count_max <> 0.
Proof. exact (pow_pred_positive 14). Qed.
Section Forever.
  Variable ftab : str -> option fent.
  Definition e_call : fent := mkfent 1 0 KCall.
  Hypothesis HC : lookup_function ftab (s2l "call f)") = Some (4, e_call).
  Hypothesis HF : lookup_function ftab n_f = None.
  Hypothesis HF' : lookup_function ftab (s2l "f)") = None.

  Lemma builtin_call : forall rec d c st, lookup_variable n_f c = Some (1, v_f) -> x_max st <= 1 ->
    (forall st1, x_max st1 <= 1 -> count st1 1 n_f <> 0 ->
       rec (pushed [(s2l "0", simple_var n_f)] c) st1 (s2l "$(f)") = XFuel) ->
    builtin ftab rec d c st e_call [n_f] = XFuel.
  Proof.
    intros rec d c st LV Hm H.
    assert (G : forall m, m <> 0 -> rec (pushed (map (fun i => (show_nat i, simple_var (nth i [n_f] []))) (seq 0 (Nat.max 1 (x_max st)))) c)
       (set_max (set_count st 1 n_f m) (Nat.max 1 (x_max st))) (s2l "$(f)") = XFuel).
    { intros m Hm0. replace (Nat.max 1 (x_max st)) with 1 by lia. apply (H (set_max (set_count st 1 n_f m) 1)); [apply Nat.le_refl|].
      unfold count. cbn [set_max set_count x_count]. destruct m; [congruence|]. cbn [find fst snd]. rewrite key_eqb_refl. discriminate. }
    specialize (G exp_count_max count_max_positive).
    assert (B : builtin ftab rec d c st e_call [n_f] =
      match lookup_function ftab n_f with
      | Some (_, e') => match d with 0 => XFuel | S d => builtin ftab rec d c st e' [] end
      | None =>
        match lookup_variable n_f c with
        | None => XOk (st, [])
        | Some (id, v) =>
          match v_value v with
          | [] => XOk (st, [])
          | _ => xbind (rec (pushed (map (fun i => (show_nat i, simple_var (nth i [n_f] []))) (seq 0 (Nat.max 1 (x_max st)))) c)
                 (set_max (set_count st id n_f exp_count_max) (Nat.max 1 (x_max st))) (s2l "$(f)"))
                 (fun '(st', s) => XOk (set_count (set_max st' (x_max st)) id n_f 0, s))
          end
        end
      end) by (destruct d; reflexivity).
    rewrite B, HF, LV. change (v_value v_f) with (c_dollar :: s2l "(call f)"). rewrite G. reflexivity.
  Qed.

  Lemma scan_call : forall rec n c st out, run_function ftab rec c st c_lparen c_rparen e_call n_f = XFuel ->
    scan ftab true rec (S n) c st (c_dollar :: c_lparen :: s2l "call f)") out = XFuel.
  Proof.
    intros rec n c st out R. set (t := s2l "call f)"). cbn [scan].
    replace (cut_at c_dollar (c_dollar :: c_lparen :: t)) with (Some (@nil ascii, c_lparen :: t)) by reflexivity.
    replace (c_lparen =?c c_dollar) with false by reflexivity.
    replace ((c_lparen =?c c_lparen) || (c_lparen =?c c_lbrace)) with true by reflexivity.
    replace (c_lparen =?c c_lparen) with true by reflexivity.
    unfold t. rewrite HC.
    replace (match_close c_lparen c_rparen 0 (next_token (skipn 4 (s2l "call f)")))) with (Some (n_f, @nil ascii)) by reflexivity.
    rewrite R. reflexivity.
  Qed.

  Lemma scan_ref : forall rec n c st out, full_reference true rec c st n_f = XFuel ->
    scan ftab true rec (S n) c st (c_dollar :: c_lparen :: s2l "f)") out = XFuel.
  Proof.
    intros rec n c st out R. set (t := s2l "f)"). cbn [scan].
    replace (cut_at c_dollar (c_dollar :: c_lparen :: t)) with (Some (@nil ascii, c_lparen :: t)) by reflexivity.
    replace (c_lparen =?c c_dollar) with false by reflexivity.
    replace ((c_lparen =?c c_lparen) || (c_lparen =?c c_lbrace)) with true by reflexivity.
    replace (c_lparen =?c c_lparen) with true by reflexivity.
    unfold t. rewrite HF'.
    replace (cut_at c_rparen (s2l "f)")) with (Some (n_f, @nil ascii)) by reflexivity.
    replace (cut_at c_dollar n_f) with (@None (str * str)) by reflexivity.
    rewrite R. reflexivity.
  Qed.

  Lemma run_call : forall rec c st, (rec c st n_f = XFuel \/ rec c st n_f = XOk (st, n_f)) ->
    builtin ftab rec 1 c st e_call [n_f] = XFuel ->
    run_function ftab rec c st c_lparen c_rparen e_call n_f = XFuel.
  Proof.
    intros rec c st H B. unfold run_function. replace (f_expand e_call) with true by reflexivity.
    replace (split_args c_lparen c_rparen (f_max e_call) (length n_f) 0 n_f) with [n_f] by reflexivity.
    cbn [expand_args]. destruct H as [H|H]; rewrite H; [reflexivity|]. cbn [xbind length]. exact B.
  Qed.

  Lemma ref_f : forall rec c st, lookup_variable n_f c = Some (1, v_f) -> x_max st <= 1 ->
    (busy st 1 n_f = false \/ count st 1 n_f <> 0) ->
    (forall st', x_max st' <= 1 -> rec c st' (s2l "$(call f)") = XFuel) ->
    full_reference true rec c st n_f = XFuel.
  Proof.
    intros rec c st LV Hm Hb B. unfold full_reference. replace (cut_at c_colon n_f) with (@None (str * str)) by reflexivity.
    unfold reference_variable. rewrite LV. change (v_value v_f) with (c_dollar :: s2l "(call f)").
    replace (v_recursive v_f) with true by reflexivity. unfold recursively_expand.
    replace (v_append v_f) with false by reflexivity. change (v_value v_f) with (s2l "$(call f)").
    destruct (busy st 1 n_f).
    - destruct (count st 1 n_f) as [|k]; [destruct Hb; congruence|]. rewrite B; [reflexivity|exact Hm].
    - rewrite B; [reflexivity|exact Hm].
  Qed.

  Lemma lookup_pushed : forall c w, lookup_variable n_f c = Some w -> lookup_variable n_f (pushed [(s2l "0", simple_var n_f)] c) = Some w.
  Proof. intros c w H. exact H. Qed.

  Lemma expand_S : forall fuel c st t, expand ftab true (S fuel) c st t = scan ftab true (expand ftab true fuel) (S (length t)) c st t [].
  Proof. reflexivity. Qed.

  Lemma call_forever : forall fuel c st, lookup_variable n_f c = Some (1, v_f) -> x_max st <= 1 ->
    expand ftab true fuel c st (s2l "$(call f)") = XFuel /\
    ((busy st 1 n_f = false \/ count st 1 n_f <> 0) -> expand ftab true fuel c st (s2l "$(f)") = XFuel).
  Proof.
    induction fuel as [|fuel IH]; intros c st LV Hm; [split; [|intros _]; reflexivity|]. split.
    - rewrite expand_S. apply scan_call. apply run_call.
      + destruct fuel as [|fuel]; [left; reflexivity|right].
        apply C12_plain_text. intros [H|[]]; discriminate.
      + apply builtin_call; [assumption|assumption|]. intros st1 H1 H2. apply IH; [|assumption|right; assumption].
        apply lookup_pushed. exact LV.
    - intros Hb. rewrite expand_S. apply scan_ref. apply ref_f; [assumption..|].
      intros st' Hs. apply IH; assumption.
  Qed.
End Forever.

Theorem C13_call_never_ends_refuted :
  exists c t, forall fuel, expand real true fuel c st0 t = XFuel.
Proof.
  exists [mknode 1 [(n_f, v_f)] false], (s2l "$(call f)"). intros fuel. apply call_forever; [vm_compute; reflexivity..|apply Nat.le_0_l].
Qed.
Print Assumptions C13_call_never_ends_refuted.

(** ** C43: calls of functions *)

(** A call gets exactly the arguments written, brackets protecting commas, and its result takes
    its place in front of whatever follows. *)
Theorem C43_call_gets_its_arguments :
  forall ftab guard fuel c st name e f args r rest,
  name <> [] -> (forall x, In x name -> is_userfunc x = true) -> length name < 256 ->
  ftab name = Some e -> f_kind e = KPure f ->
  args <> [] -> (forall a, In a args -> one_arg c_lparen c_rparen a /\ ~ In c_dollar a) ->
  (forall x l, commas args = x :: l -> isspace x = false) ->
  f_min e <= length args -> (f_max e = 0 \/ length args <= f_max e) -> f args = Some r ->
  expand ftab guard (S (S fuel)) c st (c_dollar :: c_lparen :: name ++ c_sp :: commas args ++ c_rparen :: rest)
  = prefixed r (expand ftab guard (S (S fuel)) c st rest).
Proof. exact expand_call. Qed.
Print Assumptions C43_call_gets_its_arguments.

(** Whatever the text between the brackets, the arguments joined by commas give it back, and
    there are never more than the function takes. *)
Theorem C43_arguments_are_the_text :
  forall op cl max s,
  commas (split_args op cl max (length s) 0 s) = s /\
  (0 < max -> length (split_args op cl max (length s) 0 s) <= max).
Proof. intros op cl max s. split; [apply split_joins|]. intros H. exact (split_bound op cl max (length s) 0 s H). Qed.
Print Assumptions C43_arguments_are_the_text.

Example C43_example :
  run [] "$(subst a,(x,y),banana) $(words a b c)" = XOk (s2l "b(x,y)n(x,y)n(x,y) 3") /\
  run [] "$(or ,$(and a,b),c)$(foreach i,1 2 3,<$i>)" = XOk (s2l "b<1> <2> <3>") /\
  run [("rev", "$2$1")] "$(call rev,a,b)" = XOk (s2l "ba").
Proof. split; [|split]; vm_compute; reflexivity. Qed.

(** The name of a function must be shorter than 256 characters: its length is kept in an
    unsigned char, and a longer name can be taken for a shorter one. *)
Theorem C43_long_name_refuted :
  exists name rest, length name = 256 + 5 /\ (forall x, In x name -> is_userfunc x = true) /\
    real name = None /\ exists e, lookup_function real (name ++ c_sp :: rest) = Some (5, e).
Proof.
  exists (s2l "words" ++ repeat "x"%char 256), (s2l "a"). split; [reflexivity|]. split.
  - intros x Hx. apply in_app_iff in Hx. destruct Hx as [Hx|Hx].
    + revert x Hx. apply Forall_forall. repeat constructor.
    + apply repeat_spec in Hx. subst x. reflexivity.
  - split; [vm_compute; reflexivity|]. eexists. vm_compute. reflexivity.
Qed.
Print Assumptions C43_long_name_refuted.
