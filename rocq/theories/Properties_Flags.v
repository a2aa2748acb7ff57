(** C39: options survive the way through MAKEFLAGS to a sub-make. *)
From Verif Require Import Base M_Text S_Text P_Text M_Var S_Var P_Var M_Expand S_Expand P_Expand S_Eval P_Eval M_Env S_Env P_Env M_FuncTab
  M_Def S_Def P_Def P_Def2 M_Flags S_Flags P_Flags P_Flags2 P_Flags3 P_Flags4 P_Flags5 Properties_Expand Properties_Eval Properties_Env Properties_Def.
Open Scope string_scope.
Open Scope list_scope.
Open Scope nat_scope.

Lemma flags_plain : plain_name c_rparen n_MAKEFLAGS.
Proof. apply (plain_const unit (fun _ => []) (fun _ => tt) (fun _ _ => true) tt (fun _ => None)); [left; reflexivity|reflexivity]. Qed.
Lemma var_words_ok : forall cvs w, In w (map var_word cvs) -> w <> [] /\ w <> s2l "-".
Proof.
  intros cvs w H. apply in_map_iff in H. destruct H as ([[n r] v] & <- & _).
  assert (E : In c_eq (var_word (n, r, v))) by (unfold var_word; apply in_or_app; right; apply in_or_app; left; destruct r; cbn; auto).
  split; intros K; rewrite K in E; [destruct E|destruct E as [E|[]]; discriminate].
Qed.

(** A make that was not given -e, whose options have no dollar sign in their arguments and name
    no file beginning with a tilde, runs a recipe.  The recipe's environment has an entry
    MAKEFLAGS.  A make that finds this entry in its environment has, once that is decoded, the
    same options in every respect (the arguments the same strings in the same order), and all
    others as if nothing had been given; and the words that remain are the variable definitions
    of the command line.  The --eval strings and the variables may contain anything. *)
Theorem C39_options_reach_the_sub_make :
  forall D fmt_g atof deqb minus_one tilde st,
  reasonable D tilde st -> no_dollars D st -> no_tildes D st ->
  (forall d, st "max_load_average" = VDbl D d -> ~ In c_dollar (fmt_g d) /\
     (deqb d minus_one = true -> d = minus_one) /\ (deqb d minus_one = false -> atof (fmt_g d) = d /\ fmt_g d <> [])) ->
  st "env_overrides" = VInt D 0 ->
  forall ftab fuel all shell global c level pid file env posix cvs id v,
  set_up D fmt_g deqb minus_one c st posix cvs ->
  sets_ok c -> lookup_variable n_MAKEFLAGS c = Some (id, v) -> first_in n_MAKEFLAGS c id v -> v_exp v = v_export -> v_per_target v = false ->
  target_environment ftab fuel all shell global c level pid file = XOk env ->
  exists T, In (n_MAKEFLAGS, T) env /\
  forall e pre post s1 sh id' ftab' fuel',
  import_env e (pre ++ (n_MAKEFLAGS ++ c_eq :: T) :: post) [] None = Some (s1, sh) ->
  (forall x w, In x post -> x <> n_MAKEFLAGS ++ c_eq :: w) ->
  exists d, decode_env_switches D atof minus_one tilde ftab' (S (S fuel')) [mknode id' s1 false] n_MAKEFLAGS (mkds D (o_init D minus_one) []) = XOk (Some d) /\
    handed_down D minus_one st (d_opts D d) /\ d_args D d = map var_word cvs.
Proof.
  intros D fmt_g atof deqb m1 tilde st R ND NT LOAD E0 ftab fuel all shell global c level pid file env posix cvs id v SU OK L F X PT TE.
  destruct SU as [(id2 & v2 & L2 & A2 & R2 & V2 & O2) SU]. rewrite L in L2. injection L2 as <- <-.
  assert (EX : exported all global n_MAKEFLAGS v).
  { exists v_export. split; [|left; reflexivity]. left. split; [symmetry; exact X|]. intros [K _]. congruence. }
  assert (OR : v_origin v = o_file) by (rewrite O2; unfold makeflags_origin; rewrite E0; reflexivity).
  destruct (C16_exported_value ftab fuel all shell global c level pid file env n_MAKEFLAGS id v OK TE L F EX) as (T & st1 & H1 & H2);
    [discriminate|discriminate|discriminate|exact flags_plain|right; rewrite OR; split; discriminate|].
  exists T. split; [exact H1|]. intros e pre post s1 sh id' ftab' fuel' IM PO.
  destruct (simple_group (flag_list D fmt_g deqb m1 true false st)) as [g r] eqn:G.
  assert (SU' : set_up D fmt_g deqb m1 c st posix cvs) by (split; [exists id, v; auto|exact SU]).
  pose proof (makeflags_value D fmt_g atof deqb m1 tilde ftab c st posix cvs g r R ND (fun d Hd => proj1 (LOAD d Hd)) SU' G) as EV.
  pose proof (unique_value _ _ _ _ _ _ _ H2 EV) as ET.
  destruct (import_value e pre n_MAKEFLAGS T post [] None s1 sh IM) as [x Hx];
    [intros K; repeat (destruct K as [K|K]; [discriminate|]); destruct K|discriminate|discriminate|left; reflexivity|exact PO|].
  destruct (recursive_reference ftab' fuel' [mknode id' s1 false] n_MAKEFLAGS id' _
     (g ++ body (map flag_word r ++ map eval_word (as_list D (st "eval_strings")) ++ (if negb (is_nil cvs) then s2l "--" :: map var_word cvs else [])))
     ltac:(unfold lookup_variable; cbn [lookup_from n_set n_id]; rewrite Hx; reflexivity) eq_refl eq_refl flags_plain ET) as [st2 EX2].
  destruct (decode_back D fmt_g atof deqb m1 tilde st R NT (fun d Hd => proj2 (LOAD d Hd)) g r (negb (is_nil cvs)) (map var_word cvs) G (var_words_ok cvs)) as (d & D1 & D2 & D3).
  exists d. unfold decode_env_switches. rewrite EX2, D1. split; [reflexivity|]. split; [exact D2|]. rewrite D3. destruct cvs; reflexivity.
Qed.
Print Assumptions C39_options_reach_the_sub_make.

(** With -e, and without --eval strings and command variables, dollar signs are allowed in the
    arguments too. *)
Theorem C39_options_with_e :
  forall D fmt_g atof deqb minus_one tilde st,
  reasonable D tilde st -> no_tildes D st ->
  (forall d, st "max_load_average" = VDbl D d ->
     (deqb d minus_one = true -> d = minus_one) /\ (deqb d minus_one = false -> atof (fmt_g d) = d /\ fmt_g d <> [])) ->
  st "env_overrides" = VInt D 1 -> st "eval_strings" = VList D [] ->
  forall ftab fuel all shell global c level pid file env posix id v,
  set_up D fmt_g deqb minus_one c st posix [] ->
  sets_ok c -> lookup_variable n_MAKEFLAGS c = Some (id, v) -> first_in n_MAKEFLAGS c id v -> v_exp v = v_export -> v_per_target v = false ->
  target_environment ftab fuel all shell global c level pid file = XOk env ->
  exists T, In (n_MAKEFLAGS, T) env /\
  forall e pre post s1 sh id' ftab' fuel',
  import_env e (pre ++ (n_MAKEFLAGS ++ c_eq :: T) :: post) [] None = Some (s1, sh) ->
  (forall x w, In x post -> x <> n_MAKEFLAGS ++ c_eq :: w) ->
  exists d, decode_env_switches D atof minus_one tilde ftab' (S (S fuel')) [mknode id' s1 false] n_MAKEFLAGS (mkds D (o_init D minus_one) []) = XOk (Some d) /\
    handed_down D minus_one st (d_opts D d) /\ d_args D d = [].
Proof.
  intros D fmt_g atof deqb m1 tilde st R NT LOAD E0 EV0 ftab fuel all shell global c level pid file env posix id v SU OK L F X PT TE.
  destruct SU as [(id2 & v2 & L2 & A2 & R2 & V2 & O2) SU]. rewrite L in L2. injection L2 as <- <-.
  assert (EX : exported all global n_MAKEFLAGS v).
  { exists v_export. split; [|left; reflexivity]. left. split; [symmetry; exact X|]. intros [K _]. congruence. }
  assert (OR : v_origin v = o_env_override) by (rewrite O2; unfold makeflags_origin; rewrite E0; reflexivity).
  destruct (env_entry_of ftab fuel all shell global c level pid file env n_MAKEFLAGS (id, v) TE eq_refl (table_first all shell global c n_MAKEFLAGS id v OK F EX)) as [T [J1 J2]].
  assert (ET : T = v_value v).
  { unfold env_entry in J2. rewrite OR in J2. cbn [env_origin origin_eqb] in J2.
    replace (v_recursive v && negb (env_origin o_env_override)) with false in J2 by (destruct (v_recursive v); reflexivity). congruence. }
  exists T. split; [exact J1|]. intros e pre post s1 sh id' ftab' fuel' IM PO.
  destruct (simple_group (flag_list D fmt_g deqb m1 true false st)) as [g r] eqn:G.
  rewrite V2, (makeflags_text _ _ _ _ _ _ _ _ _ G) in ET. rewrite EV0 in ET. cbn [as_list is_nil negb app] in ET. rewrite app_nil_r in ET.
  destruct (import_value e pre n_MAKEFLAGS T post [] None s1 sh IM) as [x Hx];
    [intros K; repeat (destruct K as [K|K]; [discriminate|]); destruct K|discriminate|discriminate|left; reflexivity|exact PO|].
  destruct (recursive_reference ftab' fuel' [mknode id' s1 false] n_MAKEFLAGS id' _
     (g ++ body (map flag_word r))
     ltac:(unfold lookup_variable; cbn [lookup_from n_set n_id]; rewrite Hx; reflexivity) eq_refl eq_refl flags_plain ET) as [st2 EX2].
  destruct (decode_back D fmt_g atof deqb m1 tilde st R NT LOAD g r false [] G ltac:(intros w [])) as (d & D1 & D2 & D3).
  rewrite EV0 in D1. cbn [as_list map app] in D1. rewrite app_nil_r in D1.
  exists d. unfold decode_env_switches. rewrite EX2, D1. split; [reflexivity|]. split; [exact D2|exact D3].
Qed.
Print Assumptions C39_options_with_e.

(** The options a command line gives, after those of an environment, always are reasonable
    ones. *)
Theorem C39_options_are_reasonable :
  forall D atof minus_one tilde t d0 ws d,
  decode_value D atof minus_one tilde t (mkds D (o_init D minus_one) []) = Some d0 ->
  decode_switches D atof minus_one tilde false ws d0 = Some d ->
  reasonable D tilde (d_opts D d).
Proof.
  intros D atof m1 tilde t d0 ws d H0 H. apply inv_reasonable. unfold decode_switches in H. refine (loop_inv D atof m1 tilde false _ _ d0 _ _ H).
  assert (I : inv D tilde (d_opts D (mkds D (o_init D m1) []))) by exact (inv_init D m1 tilde).
  unfold decode_value in H0. destruct (next_token t) as [|c t']; [injection H0 as <-; exact I|].
  destruct (env_words false [] (c :: t')) as [|w ws']; [injection H0 as <-; exact I|]. exact (loop_inv D atof m1 tilde true _ _ _ _ I H0).
Qed.
Print Assumptions C39_options_are_reasonable.

(** The variables: after its words are taken for definitions, the sub-make has every variable
    with the same value and flavour and as one from the command line; nothing else changes, and
    the same variables will be handed on.  Names are ordinary characters; the value of a simply
    expanded variable has no dollar sign and does not begin with white space. *)
Theorem C39_variables_reach_the_sub_make :
  forall ftab fuel e sh cvs g,
  (forall x, In x cvs -> good_var x) -> NoDup (map (fun x => fst (fst x)) cvs) ->
  (forall n w, In n (map (fun x => fst (fst x)) cvs) -> set_find n (n_set g) = Some w -> rank e (v_origin w) <= rank e o_command) ->
  exists g', define_arguments ftab (S fuel) e sh (map var_word cvs) g [] = XOk (g', rev (map (fun x => fst (fst x)) cvs)) /\
    (forall n r v, In (n, r, v) cvs -> exists w, set_find n (n_set g') = Some w /\
       v_value w = v /\ v_recursive w = r /\ rank e (v_origin w) = rank e o_command) /\
    (forall n, ~ In n (map (fun x => fst (fst x)) cvs) -> set_find n (n_set g') = set_find n (n_set g)).
Proof.
  intros ftab fuel e sh cvs g.
  assert (GEN : forall cvs g acc, (forall x, In x cvs -> good_var x) -> NoDup (map (fun x => fst (fst x)) cvs) ->
    (forall n, In n (map (fun x => fst (fst x)) cvs) -> ~ In n acc) ->
    (forall n w, In n (map (fun x => fst (fst x)) cvs) -> set_find n (n_set g) = Some w -> rank e (v_origin w) <= rank e o_command) ->
    exists g', define_arguments ftab (S fuel) e sh (map var_word cvs) g acc = XOk (g', rev (map (fun x => fst (fst x)) cvs) ++ acc) /\
    (forall n r v, In (n, r, v) cvs -> exists w, set_find n (n_set g') = Some w /\
       v_value w = v /\ v_recursive w = r /\ rank e (v_origin w) = rank e o_command) /\
    (forall n, ~ In n (map (fun x => fst (fst x)) cvs) -> set_find n (n_set g') = set_find n (n_set g))).
  2:{ intros H1 H2 H3. destruct (GEN cvs g [] H1 H2 (fun _ _ K => K) H3) as (g' & A & B). exists g'. rewrite app_nil_r in A. auto. }
  clear cvs g. induction cvs as [|[[n r] v] cvs IH]; intros g acc H1 H2 HA H3.
  - exists g. split; [reflexivity|]. split; [intros n r v []|reflexivity].
  - cbn [map fst] in *. inversion H2 as [|? ? N1 N2]; subst.
    pose proof (H1 (n, r, v) (or_introl eq_refl)) as GV. pose proof (var_defines n r v GV) as DEF.
    destruct GV as (G1 & G2 & G3 & G4 & G5).
    assert (NP : ~ In c_dollar n).
    { intros K. destruct (G2 _ K) as [[_ O] _]. apply O. right. left. reflexivity. }
    assert (EN : expand ftab true (S fuel) [g] st0 n = XOk (st0, n)) by (apply C12_plain_text; exact NP).
    assert (TV : exists st2 c2, try_variable_definition ftab (S fuel) e sh [g] st0 (var_word (n, r, v)) o_command false = XOk (Some (st2, c2))).
    { unfold try_variable_definition. rewrite (proj2 (parse_iff _ _ _ _) DEF), EN. cbn [xbind]. destruct n as [|x n]; [congruence|].
      unfold do_variable_definition. destruct r; cbn [xbind]; [eauto|]. rewrite C12_plain_text by (apply G4; reflexivity). cbn [xbind]. eauto. }
    destruct TV as (st2 & c2 & TV). destruct (C48_global_definition _ _ _ _ _ _ _ _ _ _ _ _ _ _ _ DEF EN TV) as (g2 & -> & _ & _ & OT & HH). cbn zeta in HH.
    destruct HH as [_ HH].
    assert (RK : forall w, set_find n (n_set g) = Some w -> rank e (v_origin w) <= rank e o_command) by (intros w Hw; exact (H3 n w (or_introl eq_refl) Hw)).
    destruct (HH RK) as [AS OG].
    assert (NEW : exists w, set_find n (n_set g2) = Some w /\ v_value w = v /\ v_recursive w = r /\ rank e (v_origin w) = rank e o_command).
    { unfold try_variable_definition in TV. rewrite (proj2 (parse_iff _ _ _ _) DEF), EN in TV. cbn [xbind] in TV. destruct n as [|x n]; [congruence|].
      assert (DV : exists p, n_set g2 = define_flagged e (x :: n) p o_command r false false (n_set g) /\ p = v).
      { unfold do_variable_definition in TV. destruct r; cbn [xbind] in TV.
        - inversion TV; subst. exists v. auto.
        - rewrite C12_plain_text in TV by (apply G4; reflexivity). cbn [xbind] in TV. inversion TV; subst. exists v. auto. }
      destruct DV as (p & -> & ->).
      destruct (define_flagged_same e (x :: n) v o_command r false false (n_set g)) as (w & W1 & _ & _ & W2).
      exists w. split; [exact W1|]. destruct (set_find (x :: n) (n_set g)) as [old|] eqn:Q.
      - destruct W2 as [W2 _]. destruct (W2 (RK old eq_refl)) as (W3 & W4). inversion W3. auto.
      - destruct W2 as (W3 & W4 & W5). auto. }
    destruct (IH g2 (n :: acc)) as (g' & I1 & I2 & I3); [intros x Hx; apply H1; right; exact Hx|exact N2| | |].
    { intros m Hm [K|K]; [subst; contradiction|exact (HA m (or_intror Hm) K)]. }
    { intros m w Hm Hw. rewrite OT in Hw by (intros ->; contradiction). exact (H3 m w (or_intror Hm) Hw). }
    exists g'. split; [|split].
    + cbn [map define_arguments]. rewrite TV. rewrite (proj2 (parse_iff _ _ _ _) DEF), EN.
      assert (NE : existsb (str_eqb n) acc = false).
      { apply Bool.not_true_iff_false. intros K. apply existsb_exists in K. destruct K as (y & Y1 & Y2). apply str_eqb_eq in Y2. subst y. exact (HA n (or_introl eq_refl) Y1). }
      rewrite NE, I1. cbn [rev]. rewrite <- app_assoc. reflexivity.
    + intros m q u [K|K]; [|exact (I2 m q u K)]. inversion K; subst. rewrite I3 by exact N1. exact NEW.
    + intros m Hm. rewrite I3 by (intros K; apply Hm; right; exact K). apply OT. intros ->. apply Hm. left. reflexivity.
Qed.
Print Assumptions C39_variables_reach_the_sub_make.

(** ** Cases *)

(** Load averages that are natural numbers; no user has a home directory but "me". *)
Definition nshow (n : nat) : str := show_nat n.
Definition ntilde (s : str) : option str := if str_eqb s (s2l "~me") then Some (s2l "/home/me") else None.
Definition nread (s : str) : nat := Z.to_nat (digits_value s).
Definition given (ws : list string) : option (dstate nat) :=
  decode_switches nat nread 0 ntilde false (map s2l ws) (mkds nat (o_init nat 0) []).
Definition var_of (value : str) (o : origin) (r : bool) (x : vexport) : var := mkvar value o r false false false false x true.
(** What main sets up, and a recipe's environment; what the next make reads from that. *)
Definition main_set (st : ostate nat) (cvs : list (str * bool * str)) : vset :=
  [(n_MAKEFLAGS, var_of (makeflags nat nshow Nat.eqb 0 true false false (negb (is_nil cvs)) st) (makeflags_origin nat st) true v_export);
   (n_EVAL, var_of (eval_flags nat st) o_automatic false v_default);
   (n_CVS, var_of (command_variables_text cvs) o_automatic false v_default);
   (n_OVER, var_of (s2l "${-*-command-variables-*-}") o_env true v_default)].
Definition relay_text (st : ostate nat) (cvs : list (str * bool * str)) : option str :=
  match target_environment real 9 false None (main_set st cvs) [mknode 0 (main_set st cvs) false] 0 7 (s2l "all") with
  | XOk env => option_map snd (find (fun x => str_eqb (fst x) n_MAKEFLAGS) env)
  | _ => None
  end.
Definition relay (st : ostate nat) (cvs : list (str * bool * str)) : option (dstate nat) :=
  match relay_text st cvs with
  | Some t =>
      match import_env false [n_MAKEFLAGS ++ c_eq :: t] [] None with
      | Some (s1, _) =>
          match decode_env_switches nat nread 0 ntilde real 9 [mknode 0 s1 false] n_MAKEFLAGS (mkds nat (o_init nat 0) []) with
          | XOk r => r
          | _ => None
          end
      | None => None
      end
  | None => None
  end.
Definition asked (o : option (dstate nat)) (p : string) : option (oval nat) := option_map (fun d => d_opts nat d p) o.
Definition relayed (ws : list string) (cvs : list (str * bool * str)) : option (dstate nat) :=
  match given ws with Some d => relay (d_opts nat d) cvs | None => None end.

Example C39_example :
  let ws := ["-kw"; "-I"; "a b"; "-j"; "4"; "--eval=X:=$(y)"; "-l3"; "-Iinc/"; "--no-print-directory"] in
  let cvs := [(s2l "V", true, s2l "$(x) y\"); (s2l "W", false, s2l "p  q")] in
  option_map (fun d => relay_text (d_opts nat d) cvs) (given ws) =
    Some (Some (s2l "kw -Ia\ b -Iinc/ -j4 -l3 --no-print-directory --eval=X:=$$(y) -- V=$$(x)\ y\\ W:=p\ \ q")) /\
  asked (relayed ws cvs) "keep_going_flag" = Some (VInt nat 1) /\
  asked (relayed ws cvs) "arg_job_slots" = Some (VInt nat 4) /\
  asked (relayed ws cvs) "max_load_average" = Some (VDbl nat 3) /\
  asked (relayed ws cvs) "include_directories" = Some (VList nat [s2l "a b"; s2l "inc/"]) /\
  asked (relayed ws cvs) "eval_strings" = Some (VList nat [s2l "X:=$(y)"]) /\
  asked (relayed ws cvs) "silent_flag" = Some (VInt nat 0) /\
  option_map (d_args nat) (relayed ws cvs) = Some (map var_word cvs).
Proof. cbv zeta. repeat split; vm_compute; reflexivity. Qed.

(** The hypotheses of the theorems hold for these options. *)
Definition case_words : list string := ["-kw"; "-I"; "a b"; "-j"; "4"; "--eval=X:=$(y)"; "-l3"; "-Iinc/"].
Definition case_vars : list (str * bool * str) := [(s2l "V", true, s2l "$(x) y\"); (s2l "W", false, s2l "p  q")].
Definition case_state : ostate nat := match given case_words with Some d => d_opts nat d | None => o_init nat 0 end.
Definition case_chain : chain := [mknode 0 (main_set case_state case_vars) false].
Lemma case_reasonable : reasonable nat ntilde case_state.
Proof.
  unfold case_state. destruct (given case_words) as [d|] eqn:E; [|exfalso; vm_compute in E; discriminate].
  exact (C39_options_are_reasonable nat nread 0 ntilde [] (mkds nat (o_init nat 0) []) (map s2l case_words) d eq_refl E).
Qed.
Example C39_hypotheses :
  reasonable nat ntilde case_state /\ no_dollars nat case_state /\ no_tildes nat case_state /\
  case_state "env_overrides" = VInt nat 0 /\ nread (nshow 3) = 3 /\
  set_up nat nshow Nat.eqb 0 case_chain case_state false case_vars /\ sets_ok case_chain /\
  (exists v, lookup_variable n_MAKEFLAGS case_chain = Some (0, v) /\ first_in n_MAKEFLAGS case_chain 0 v /\ v_exp v = v_export) /\
  (forall x, In x case_vars -> good_var x).
Proof.
  split; [exact case_reasonable|]. split.
  { split.
    - intros p s Hp Hs. cbn [strings_passed In] in Hp. repeat (destruct Hp as [<-|Hp]; [vm_compute in Hs; discriminate|]). destruct Hp.
    - intros p l s Hp Ne Hs Hi. cbn [lists_passed files_passed In app] in Hp.
      repeat (destruct Hp as [<-|Hp]; [try congruence; vm_compute in Hs; injection Hs as <-; vm_compute in Hi;
        repeat (destruct Hi as [<-|Hi]; [intros K; vm_compute in K; repeat (destruct K as [K|K]; [discriminate K|]); exact K|]); destruct Hi|]). destruct Hp. }
  split.
  { intros p l s Hp Hs Hi. cbn [files_passed In] in Hp.
    repeat (destruct Hp as [<-|Hp]; [vm_compute in Hs; injection Hs as <-; vm_compute in Hi; repeat (destruct Hi as [Hi|Hi]; [discriminate Hi|]); exact Hi|]). destruct Hp. }
  split; [vm_compute; reflexivity|]. split; [vm_compute; reflexivity|]. split.
  { split; [|split; [|split]].
    - eexists _, _. split; [vm_compute; reflexivity|]. repeat split; vm_compute; reflexivity.
    - intros _. eexists _, _. split; [vm_compute; reflexivity|]. repeat split; vm_compute; reflexivity.
    - intros _. eexists _, _. split; [vm_compute; reflexivity|]. repeat split; vm_compute; reflexivity.
    - intros _ _. eexists _, _. split; [vm_compute; reflexivity|]. repeat split; vm_compute; reflexivity. }
  split.
  { intros nd [<-|[]]. cbn [n_set main_set map fst]. repeat (constructor; [vm_compute; intros K; repeat (destruct K as [K|K]; [discriminate K|]); exact K|]). constructor. }
  split.
  { eexists. split; [unfold lookup_variable, case_chain; cbn [lookup_from n_set n_id main_set]; vm_compute; reflexivity|]. split.
    - exists [], (mknode 0 (main_set case_state case_vars) false), []. split; [reflexivity|]. split; [reflexivity|]. split; [vm_compute; reflexivity|]. intros x [].
    - reflexivity. }
  intros x [<-|[<-|[]]]; (split; [discriminate|]); (split;
    [intros c [<-|[]]; split; [split; [reflexivity
                                      |intros K; vm_compute in K; repeat (destruct K as [K|K]; [discriminate K|]); exact K]|reflexivity]|]); (split; [|split]).
  - intros _ m c E. destruct m as [|y [|z m]]; [injection E as <-|discriminate|discriminate]. intros K; vm_compute in K; repeat (destruct K as [K|K]; [discriminate K|]); exact K.
  - discriminate.
  - intros c t E. injection E as <- <-. reflexivity.
  - discriminate.
  - intros _ K; vm_compute in K; repeat (destruct K as [K|K]; [discriminate K|]); exact K.
  - intros c t E. injection E as <- <-. reflexivity.
Qed.

(** ** What does not survive *)

(** An argument with a dollar sign: the recipe's environment has the value of MAKEFLAGS, and the
    sub-make expands it once more. *)
Theorem C39_dollar_in_argument_refuted : exists ws,
  asked (given ws) "include_directories" = Some (VList nat [s2l "a$b"]) /\
  asked (relayed ws []) "include_directories" = Some (VList nat [s2l "a"]).
Proof. exists ["-Ia$b"]. split; vm_compute; reflexivity. Qed.
Print Assumptions C39_dollar_in_argument_refuted.

(** With -e neither --eval strings nor command variables arrive: MAKEFLAGS then is exported as
    written, with references to variables the sub-make does not have. *)
Theorem C39_environment_overrides_refuted : exists ws cvs,
  asked (given ws) "eval_strings" = Some (VList nat [s2l "x=1"]) /\
  asked (relayed ws cvs) "env_overrides" = Some (VInt nat 1) /\
  asked (relayed ws cvs) "eval_strings" = Some (VList nat []) /\
  cvs <> [] /\ option_map (d_args nat) (relayed ws cvs) = Some [[]].
Proof.
  exists ["-e"; "--eval=x=1"], [(s2l "V", true, s2l "1")]. split; [vm_compute; reflexivity|]. split; [vm_compute; reflexivity|].
  split; [vm_compute; reflexivity|]. split; [discriminate|vm_compute; reflexivity].
Qed.
Print Assumptions C39_environment_overrides_refuted.

(** A directory whose name begins with a tilde and was given as "./~me" is another one in the
    sub-make. *)
Theorem C39_tilde_refuted : exists ws,
  asked (given ws) "include_directories" = Some (VList nat [s2l "~me"]) /\
  asked (relayed ws []) "include_directories" = Some (VList nat [s2l "/home/me"]).
Proof. exists ["-I./~me"]. split; vm_compute; reflexivity. Qed.
Print Assumptions C39_tilde_refuted.

Definition defined (cvs : list (str * bool * str)) (n : string) : option (option (str * bool)) :=
  match define_arguments real 9 false (fun s => s) (map var_word cvs) (mknode 0 [] false) [] with
  | XOk (g, _) => Some (view (set_find (s2l n) (n_set g)))
  | _ => None
  end.
(** A simply expanded variable whose value has a dollar sign (V:='a$$b' on the command line) is
    expanded again. *)
Theorem C39_simple_variable_refuted : defined [(s2l "V", false, s2l "a$b")] "V" = Some (Some (s2l "a", false)).
Proof. vm_compute. reflexivity. Qed.
Print Assumptions C39_simple_variable_refuted.
(** A variable with the name "V+" (given as "V+ =x") is appended to "V" instead. *)
Theorem C39_operator_in_name_refuted :
  defined [(s2l "V+", true, s2l "x")] "V+" = Some None /\ defined [(s2l "V+", true, s2l "x")] "V" = Some (Some (s2l "x", true)).
Proof. split; vm_compute; reflexivity. Qed.
Print Assumptions C39_operator_in_name_refuted.
Example C39_variables_ex : defined case_vars "V" = Some (Some (s2l "$(x) y\", true)) /\ defined case_vars "W" = Some (Some (s2l "p  q", false)).
Proof. split; vm_compute; reflexivity. Qed.
