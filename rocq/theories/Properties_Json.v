From Coq Require Import ZArith Lia.
From Verif Require Import Base M_Text M_Var M_Expand M_Env P_Env M_Json S_Json S_Profile P_Json Properties_Expand W_Json.
Open Scope string_scope.
Open Scope list_scope.
Open Scope nat_scope.

(** ** C56: a sub-make knows its parent *)

Lemma atoi_show_loop fuel : forall n rest, n < fuel -> atoi_from 0 (show_loop fuel n rest) = atoi_from n rest.
Proof.
  assert (D : forall k acc rest, k < 10 -> atoi_from acc (ascii_of_nat (48 + k) :: rest) = atoi_from (10 * acc + k) rest).
  { intros k acc rest K. do 10 (destruct k as [|k]; [reflexivity|]). lia. }
  induction fuel as [|fuel IH]; intros n rest L; [lia|]. cbn [show_loop].
  assert (M : n mod 10 < 10) by (apply Nat.mod_upper_bound; lia). pose proof (Nat.div_mod n 10 ltac:(lia)) as E.
  destruct (n / 10 =? 0) eqn:Z.
  - apply Nat.eqb_eq in Z. rewrite D by exact M. f_equal. lia.
  - apply Nat.eqb_neq in Z. rewrite IH by lia. rewrite D by exact M. f_equal. lia.
Qed.
Lemma atoi_show n : atoi_from 0 (show_nat n) = n.
Proof. unfold show_nat. rewrite atoi_show_loop by lia. reflexivity. Qed.
Lemma number_of_show n : number_of (Some (show_nat n)) = n.
Proof.
  unfold number_of. pose proof (atoi_show n) as A. destruct (show_shape n) as (_ & c & r & E & D & _). rewrite E in *.
  rewrite (digit_minus c D). exact A.
Qed.
Definition entries (env : list (str * str)) : list str := map (fun x => fst x ++ c_eq :: snd x) env.
Definition value_of (n : str) (s : vset) : option str := option_map v_value (set_find n s).
Lemma import_total e l : forall s sh, import_env e (entries l) s sh <> None.
Proof.
  induction l as [|[n v] l IH]; intros s sh; [discriminate|]. cbn [entries map fst snd import_env].
  assert (C : forall x y, cut_at c_eq (x ++ c_eq :: y) <> None).
  { clear. induction x as [|a x IHx]; intros y; cbn [app cut_at]; [rewrite eqc_refl; discriminate|].
    destruct (a =?c c_eq); [discriminate|]. specialize (IHx y). destruct (cut_at c_eq (x ++ c_eq :: y)) as [[? ?]|]; [discriminate|congruence]. }
  destruct (cut_at c_eq (n ++ c_eq :: v)) as [[m w]|] eqn:E; [|destruct (C _ _ E)].
  destruct (define_in_set _ _ _ _ _ _ _) as [s1 v1]. apply IH.
Qed.
Lemma imported_value e n v s : imported e n v s -> value_of n s = Some v.
Proof. intros [x H]. unfold value_of. rewrite H. reflexivity. Qed.
Lemma told ftab fuel all shell global c level pid file env e s sh :
  target_environment ftab fuel all shell global c level pid file = XOk env -> import_env e (entries env) [] None = Some (s, sh) ->
  value_of n_MAKELEVEL s = Some (show_nat (S level)) /\ value_of n_MAKEPARENT_PID s = Some (show_nat pid) /\ value_of n_MAKEPARENT_TARGET s = Some file.
Proof.
  intros T I. unfold target_environment in T. destruct (env_entries _ _ _ _) as [l| |]; cbn [xbind] in T; try discriminate.
  injection T as T. subst env. unfold entries in I. rewrite map_app in I. cbn [map fst snd] in I.
  assert (N : forall x, In x [n_MAKELEVEL; n_MAKEPARENT_PID; n_MAKEPARENT_TARGET] -> ~ In c_eq x /\ x <> n_MAKE_RESTARTS /\ x <> n_SHELL).
  { intros x [<-|[<-|[<-|[]]]]; (split; [|split; discriminate]); cbn; intuition discriminate. }
  split; [|split].
  - destruct (N n_MAKELEVEL ltac:(cbn; tauto)) as (A & B & C).
    apply (imported_value e). refine (import_value e _ _ _ _ _ _ _ _ I A B C (or_introl eq_refl) _). intros x w [<-|[<-|[]]]; discriminate.
  - destruct (N n_MAKEPARENT_PID ltac:(cbn; tauto)) as (A & B & C). change [?a; ?b; ?d] with ([a] ++ [b; d]) in I. rewrite app_assoc in I.
    apply (imported_value e). refine (import_value e _ _ _ _ _ _ _ _ I A B C (or_introl eq_refl) _). intros x w [<-|[]]; discriminate.
  - destruct (N n_MAKEPARENT_TARGET ltac:(cbn; tauto)) as (A & B & C). change [?a; ?b; ?d] with ([a; b] ++ [d]) in I. rewrite app_assoc in I.
    apply (imported_value e). refine (import_value e _ _ _ _ _ _ _ _ I A B C (or_introl eq_refl) _). intros x w [].
Qed.

(** A make started by a recipe can read its environment, is one level deeper, and knows the process and (unless the name
    is empty or begins with a dash) the target that started it. *)
Theorem C56_parent :
  forall ftab fuel all shell global c level pid file env e,
  target_environment ftab fuel all shell global c level pid file = XOk env ->
  exists s sh, import_env e (entries env) [] None = Some (s, sh) /\
    number_of (value_of n_MAKELEVEL s) = S level /\ number_of (value_of n_MAKEPARENT_PID s) = pid /\
    (forall a r, file = a :: r -> a <> c_minus -> target_of (value_of n_MAKEPARENT_TARGET s) = Some file).
Proof.
  intros ftab fuel all shell global c level pid file env e T.
  destruct (import_env e (entries env) [] None) as [[s sh]|] eqn:I; [|destruct (import_total e env [] None I)].
  exists s, sh. split; [reflexivity|]. destruct (told _ _ _ _ _ _ _ _ _ _ _ _ _ T I) as (A & B & C). rewrite A, B, C, !number_of_show.
  split; [reflexivity|]. split; [reflexivity|]. intros a r -> N. cbn [target_of]. destruct (a =?c c_minus) eqn:E; [apply eqc_true in E; congruence|reflexivity].
Qed.
Print Assumptions C56_parent.

(** It then defines the three variables with these values, if the target has fewer than 200 characters. *)
Theorem C56_variables :
  forall level pid t, length t < 200 ->
  exists l, own_variables level pid (Some t) = Some l /\
    forall n v, In (n, v) l <-> (n = n_MAKELEVEL /\ v = show_nat level) \/ (n = n_MAKEPARENT_PID /\ v = show_nat pid) \/ (n = n_MAKEPARENT_TARGET /\ v = t).
Proof.
  intros level pid t L. unfold own_variables, in_buf. apply Nat.ltb_lt in L. rewrite L. eexists. split; [reflexivity|].
  intros n v. cbn [app In]. split.
  - intros [H|[H|[H|[]]]]; injection H as <- <-; tauto.
  - intros [[-> ->]|[[-> ->]|[-> ->]]]; tauto.
Qed.
Print Assumptions C56_variables.

Example C56_example :
  exists env s sh, target_environment real 10 false None [] [mknode 0 [] false] 0 4321 (s2l "lib/all") = XOk env /\
    import_env false (entries env) [] None = Some (s, sh) /\ number_of (value_of n_MAKELEVEL s) = 1 /\
    target_of (value_of n_MAKEPARENT_TARGET s) = Some (s2l "lib/all") /\ own_variables 1 4321 (Some (s2l "lib/all")) <> None.
Proof. eexists _, _, _. split; [vm_compute; reflexivity|]. split; [vm_compute; reflexivity|]. split; [vm_compute; reflexivity|]. split; [vm_compute; reflexivity|]. discriminate. Qed.

(** Every longer target name makes the sub-make write past the end of an array on its stack. *)
Theorem C56_overflow_refuted :
  forall a r, a <> c_minus -> 200 <= length (a :: r) ->
  exists env s sh, target_environment real 10 false None [] [mknode 0 [] false] 0 1 (a :: r) = XOk env /\
    import_env false (entries env) [] None = Some (s, sh) /\
    own_variables (number_of (value_of n_MAKELEVEL s)) (number_of (value_of n_MAKEPARENT_PID s)) (target_of (value_of n_MAKEPARENT_TARGET s)) = None.
Proof.
  intros a r N L. assert (T : exists env, target_environment real 10 false None [] [mknode 0 [] false] 0 1 (a :: r) = XOk env) by (eexists; reflexivity).
  destruct T as [env T]. exists env. destruct (C56_parent _ _ _ _ _ _ _ _ _ _ false T) as (s & sh & I & A & B & C). exists s, sh.
  split; [exact T|]. split; [exact I|]. rewrite A, B, (C a r eq_refl N). unfold own_variables, in_buf. destruct (length (a :: r) <? 200) eqn:E; [apply Nat.ltb_lt in E; lia|reflexivity].
Qed.
Print Assumptions C56_overflow_refuted.

(** A target whose name begins with a dash is lost, though the process is known. *)
Theorem C56_dash_refuted :
  exists file env s sh, file <> [] /\ target_environment real 10 false None [] [mknode 0 [] false] 0 7 file = XOk env /\
    import_env false (entries env) [] None = Some (s, sh) /\
    number_of (value_of n_MAKEPARENT_PID s) = 7 /\ target_of (value_of n_MAKEPARENT_TARGET s) = None.
Proof. exists (s2l "-x"). eexists _, _, _. split; [discriminate|]. split; [vm_compute; reflexivity|]. split; [vm_compute; reflexivity|]. split; vm_compute; reflexivity. Qed.
Print Assumptions C56_dash_refuted.

(** ** C57: the profile is a JSON document *)

(** The file is a JSON document that says what the profile says, if the names have no control characters but backspace, tab, newline and
    return (which become spaces), and the directory, the status and the names of the makefiles have no quotes, backslashes and control characters. *)
Theorem C57_document :
  forall g, profile_ok g -> match g_parent g with Some (_, None) => False | _ => True end ->
  exists t, dump g = Some t /\ document t (profile_json g).
Proof. exact dump_json. Qed.
Print Assumptions C57_document.

(** A text is a document for one value only. *)
Lemma value_unique_all :
  (forall ts v, value ts v -> forall ts' v' r r', value ts' v' -> ts ++ r = ts' ++ r' -> ts = ts' /\ v = v') /\
  (forall ts l, items ts l -> forall ts' l' r r', items ts' l' -> ts ++ TEnd :: r = ts' ++ TEnd :: r' -> ts = ts' /\ l = l') /\
  (forall ts l, members ts l -> forall ts' l' r r', members ts' l' -> ts ++ TClose :: r = ts' ++ TClose :: r' -> ts = ts' /\ l = l').
Proof.
  assert (NV : forall ts v, value ts v -> forall r, exists t ts', ts = t :: ts' /\ ts ++ r = t :: ts' ++ r /\ t <> TEnd /\ t <> TClose /\ t <> TComma).
  { intros ts v H r. destruct H; eexists _, _; (split; [reflexivity|]); (split; [reflexivity|]); repeat split; discriminate. }
  assert (NI : forall ts l, items ts l -> exists t ts', ts = t :: ts' /\ t <> TEnd).
  { intros ts l H. destruct H as [ts v H|ts v ts' l H _]; destruct (NV _ _ H []) as (t & u & -> & _ & A & _); eexists _, _; (split; [reflexivity|exact A]). }
  assert (NM : forall ts l, members ts l -> exists k ts', ts = TString k :: ts').
  { intros ts l H. destruct H; eexists _, _; reflexivity. }
  assert (IND : forall n,
    (forall ts v, value ts v -> length ts <= n -> forall ts' v' r r', value ts' v' -> ts ++ r = ts' ++ r' -> ts = ts' /\ v = v') /\
    (forall ts l, items ts l -> length ts <= n -> forall ts' l' r r', items ts' l' -> ts ++ TEnd :: r = ts' ++ TEnd :: r' -> ts = ts' /\ l = l') /\
    (forall ts l, members ts l -> length ts <= n -> forall ts' l' r r', members ts' l' -> ts ++ TClose :: r = ts' ++ TClose :: r' -> ts = ts' /\ l = l')).
  { induction n as [|n (IV & II & IM)].
    - split; [|split]; intros ts v H L.
      + destruct (NV _ _ H []) as (t & u & -> & _). cbn in L. lia.
      + destruct (NI _ _ H) as (t & u & -> & _). cbn in L. lia.
      + destruct (NM _ _ H) as (t & u & ->). cbn in L. lia.
    - assert (VV : forall ts v, value ts v -> length ts <= S n -> forall ts' v' r r', value ts' v' -> ts ++ r = ts' ++ r' -> ts = ts' /\ v = v').
      { intros ts v H L ts' v' r r' H' E. destruct H as [s|s|s| |ts l H| |ts l H]; destruct H' as [s'|s'|s'| |ts' l' H'| |ts' l' H']; cbn [app] in E; try discriminate.
        - injection E as -> _. split; reflexivity.
        - injection E as -> _. split; reflexivity.
        - injection E as -> _. split; reflexivity.
        - split; reflexivity.
        - destruct (NI _ _ H') as (t & u & -> & N). injection E as E _. congruence.
        - destruct (NI _ _ H) as (t & u & -> & N). injection E as E _. congruence.
        - injection E as E. rewrite <- !app_assoc in E. cbn [app] in E. cbn [length] in L. rewrite app_length in L.
          destruct (II _ _ H ltac:(lia) _ _ _ _ H' E) as [-> ->]. split; reflexivity.
        - split; reflexivity.
        - destruct (NM _ _ H') as (t & u & ->). discriminate.
        - destruct (NM _ _ H) as (t & u & ->). discriminate.
        - injection E as E. rewrite <- !app_assoc in E. cbn [app] in E. cbn [length] in L. rewrite app_length in L.
          destruct (IM _ _ H ltac:(lia) _ _ _ _ H' E) as [-> ->]. split; reflexivity. }
      split; [exact VV|]. split.
      + intros ts l H L ts' l' r r' H' E.
        destruct H as [ts v H|ts v us l H HI]; destruct H' as [ts' v' H'|ts' v' us' l' H' HI'].
        * destruct (VV _ _ H L _ _ _ _ H' E) as [-> ->]. split; reflexivity.
        * rewrite <- app_assoc in E. destruct (VV _ _ H L _ _ _ _ H' E) as [-> ->]. apply app_inv_head in E. discriminate.
        * rewrite <- app_assoc in E. rewrite app_length in L. destruct (VV _ _ H ltac:(lia) _ _ _ _ H' E) as [-> ->]. apply app_inv_head in E. discriminate.
        * rewrite <- !app_assoc in E. rewrite app_length in L. cbn [length] in L. destruct (VV _ _ H ltac:(lia) _ _ _ _ H' E) as [-> ->].
          apply app_inv_head in E. cbn [app] in E. injection E as E. destruct (II _ _ HI ltac:(lia) _ _ _ _ HI' E) as [-> ->]. split; reflexivity.
      + intros ts l H L ts' l' r r' H' E.
        destruct H as [k ts v H|k ts v us l H HI]; destruct H' as [k' ts' v' H'|k' ts' v' us' l' H' HI']; cbn [app length] in L, E; injection E as -> E.
        * destruct (IV _ _ H ltac:(lia) _ _ _ _ H' E) as [-> ->]. split; reflexivity.
        * rewrite <- app_assoc in E. destruct (IV _ _ H ltac:(lia) _ _ _ _ H' E) as [-> ->]. apply app_inv_head in E. discriminate.
        * rewrite <- app_assoc in E. rewrite app_length in L. destruct (IV _ _ H ltac:(lia) _ _ _ _ H' E) as [-> ->]. apply app_inv_head in E. discriminate.
        * rewrite <- !app_assoc in E. rewrite app_length in L. cbn [length] in L. destruct (IV _ _ H ltac:(lia) _ _ _ _ H' E) as [-> ->].
          apply app_inv_head in E. cbn [app] in E. injection E as E. destruct (IM _ _ HI ltac:(lia) _ _ _ _ HI' E) as [-> ->]. split; reflexivity. }
  split; [|split]; intros ts v H; [apply (proj1 (IND (length ts)))|apply (proj1 (proj2 (IND (length ts))))|apply (proj2 (proj2 (IND (length ts))))]; auto.
Qed.
Theorem C57_one_reading : forall t v v', document t v -> document t v' -> v = v'.
Proof.
  intros t v v' (ts & L & V) (ts' & L' & V'). rewrite L in L'. injection L' as <-.
  exact (proj2 (proj1 value_unique_all ts v V ts v' [] [] V' eq_refl)).
Qed.
Print Assumptions C57_one_reading.

Lemma flatten_value : forall v, value (flatten v) v.
Proof.
  fix F 1. intros [s|s|s|l|l]; [constructor..| |].
  - assert (A : Forall (fun v => value (flatten v) v) l) by (induction l as [|v l IH]; constructor; [apply F|exact IH]).
    clear F. destruct l as [|v l]; [apply v_empty|]. cbn [flatten]. apply v_list. revert v A. induction l as [|w l IH]; intros v A; inversion A as [|? ? A1 A2]; subst.
    + apply i_one. exact A1.
    + apply i_more; [exact A1|]. apply IH. exact A2.
  - assert (A : Forall (fun kv => value (flatten (snd kv)) (snd kv)) l) by (induction l as [|[k v] l IH]; constructor; [apply F|exact IH]).
    clear F. destruct l as [|[k v] l]; [apply v_none|]. cbn [flatten]. apply v_object. revert k v A. induction l as [|[k' w] l IH]; intros k v A; inversion A as [|? ? A1 A2]; subst.
    + apply m_one. exact A1.
    + apply m_more; [exact A1|]. apply IH. exact A2.
Qed.

(** Names without control characters are recovered. *)
Theorem C57_names : forall s, raw_ok s \/ forallb printable s = true -> shown s = s.
Proof.
  assert (X : forall s, forallb printable s = true -> shown s = s).
  { induction s as [|c s IH]; [reflexivity|]. cbn [forallb]. intros H. apply andb_true_iff in H. destruct H as [H1 H2]. cbn [shown map]. fold (shown s). rewrite (IH H2).
    destruct ((c =?c ascii_of_nat 8) || (c =?c c_tab) || (c =?c c_nl) || (c =?c c_cr)) eqn:E; [|reflexivity]. exfalso.
    apply orb_true_iff in E. destruct E as [E|E]; [apply orb_true_iff in E; destruct E as [E|E]; [apply orb_true_iff in E; destruct E as [E|E]|]|];
      apply eqc_true in E; subst; discriminate. }
  intros s [H|H]; apply X; [|exact H]. unfold raw_ok in H. rewrite forallb_forall in *. intros c I. specialize (H c I). destruct (printable c); [reflexivity|discriminate].
Qed.
Print Assumptions C57_names.
(** Numbers can be read.  Times: seconds, a dot, and nine digits for the nanoseconds. *)
Lemma read_app a b : read (a ++ [b]) = 10 * read a + (nat_of_ascii b - 48).
Proof. unfold read. rewrite fold_left_app. reflexivity. Qed.
Lemma numeral_value n : nat_of_ascii (numeral n) - 48 = n mod 10.
Proof. unfold numeral. assert (M : n mod 10 < 10) by (apply Nat.mod_upper_bound; lia). revert M. generalize (n mod 10). intros k M. do 10 (destruct k as [|k]; [reflexivity|]). lia. Qed.
Lemma read_decimal : forall n, read (decimal n) = n.
Proof.
  intros n. induction n as [n IH] using (well_founded_induction lt_wf). rewrite decimal_step, read_app, numeral_value. pose proof (Nat.div_mod n 10 ltac:(lia)) as E.
  destruct (n <? 10) eqn:L; [apply Nat.ltb_lt in L; rewrite Nat.mod_small by exact L; reflexivity|]. apply Nat.ltb_ge in L. rewrite IH by (apply Nat.div_lt; lia). lia.
Qed.
Lemma read_zeros k s : read (repeat "0"%char k ++ s) = read s.
Proof. induction k as [|k IH]; [reflexivity|exact IH]. Qed.
Lemma low_length k : forall n, length (low k n) = k.
Proof. induction k as [|k IH]; intros n; [reflexivity|]. cbn [low]. rewrite app_length, IH. cbn. lia. Qed.
Theorem C57_times : forall s ns, (N.of_nat ns < 1000000000)%N ->
  exists a d, stamp (Some (s, ns)) = a ++ c_dot :: d /\ length d = 9 /\ read a = s /\ read d = ns.
Proof.
  intros s ns L. exists (show_nat s), (show09 ns). split; [reflexivity|]. rewrite show_decimal, read_decimal. split; [rewrite (show09_low ns L); apply low_length|]. split; [reflexivity|].
  unfold show09. rewrite read_zeros, show_decimal. apply read_decimal.
Qed.
Theorem C57_numbers : forall z, read_int (show_int z) = z.
Proof.
  intros z. rewrite show_integer. unfold integer. destruct (Z.ltb_spec z 0) as [L|L].
  - cbn [read_int]. rewrite eqc_refl, read_decimal. lia.
  - destruct (show_shape (Z.to_nat z)) as (_ & c & r & E & D & _). rewrite show_decimal in E. unfold read_int. rewrite E, (digit_minus c D), <- E, read_decimal. lia.
Qed.
Print Assumptions C57_numbers.
Print Assumptions C57_times.

Definition c57_target (name file : str) : target :=
  {| p_name := name; p_file := Some file; p_line := 3; p_start := Some (17, 5); p_deps := None; p_recipe := None; p_end := Some (18, 0); p_calls := [s2l "a"; s2l "b"] |}.
Definition c57_profile (parent : option (nat * option str)) (dir name file : str) : profile :=
  {| g_pid := 42; g_parent := parent; g_creator := s2l "remake 4.3"; g_argv := [s2l "remake"; s2l "-j"]; g_jobs := (-1)%Z; g_server := true; g_status := s2l "Normal";
     g_start := Some (16, 0); g_end := Some (19, 7); g_dir := dir; g_goals := [s2l "all"]; g_targets := [c57_target name file; c57_target (s2l "z") file] |}.
Example C57_example : exists t, dump (c57_profile (Some (7, Some (s2l "up"))) (s2l "/d") (c_dq :: s2l "x\y") (s2l "Makefile")) = Some t /\
  document t (profile_json (c57_profile (Some (7, Some (s2l "up"))) (s2l "/d") (c_dq :: s2l "x\y") (s2l "Makefile"))).
Proof. apply C57_document; [repeat split; repeat constructor; reflexivity|exact I]. Qed.

(** The name of a makefile is not escaped: there may be no document. *)
Theorem C57_makefile_refuted : exists g t, dump g = Some t /\ forall v, ~ document t v.
Proof.
  exists (c57_profile None (s2l "/d") (s2l "x") (s2l "a" ++ c_dq :: s2l "b.mk")). eexists. split; [reflexivity|].
  intros v (ts & L & _). vm_compute in L. discriminate.
Qed.
Print Assumptions C57_makefile_refuted.
(** The directory is not escaped: its name can be read as other members. *)
Theorem C57_directory_refuted : exists g t v, dump g = Some t /\ document t v /\ v <> profile_json g.
Proof.
  set (d := s2l "/d" ++ q "','status':'bad").
  set (kv := match profile_json (c57_profile None (s2l "/d") (s2l "x") (s2l "m")) with JObject l => l | _ => [] end).
  exists (c57_profile None d (s2l "x") (s2l "m")). eexists. exists (JObject (firstn 10 kv ++ [(s2l "status", JString (s2l "bad"))] ++ skipn 10 kv)).
  split; [reflexivity|]. split; [|intros H; vm_compute in H; discriminate].
  exists (flatten (JObject (firstn 10 kv ++ [(s2l "status", JString (s2l "bad"))] ++ skipn 10 kv))). split; [vm_compute; reflexivity|apply flatten_value].
Qed.
Print Assumptions C57_directory_refuted.
(** A control character that escape_print does not know leaves no document. *)
Theorem C57_control_refuted :
  exists name, (exists t, dump (c57_profile None (s2l "/d") (s2l "x") (s2l "m")) = Some t /\ document t (profile_json (c57_profile None (s2l "/d") (s2l "x") (s2l "m")))) /\
  exists t, dump (c57_profile None (s2l "/d") name (s2l "m")) = Some t /\ forall v, ~ document t v.
Proof.
  exists [ascii_of_nat 27]. split; [apply C57_document; [repeat split; repeat constructor; reflexivity|exact I]|]. eexists. split; [reflexivity|].
  intros v (ts & L & _). vm_compute in L. discriminate.
Qed.
Print Assumptions C57_control_refuted.
(** A sub-make started by a target whose name begins with a dash reads a null pointer instead of writing its profile. *)
Theorem C57_null_refuted :
  exists file env s sh, file <> [] /\ target_environment real 10 false None [] [mknode 0 [] false] 0 7 file = XOk env /\
    import_env false (entries env) [] None = Some (s, sh) /\
    dump (c57_profile (Some (number_of (value_of n_MAKEPARENT_PID s), target_of (value_of n_MAKEPARENT_TARGET s))) (s2l "/d") (s2l "x") (s2l "m")) = None.
Proof. exists (s2l "-x"). eexists _, _, _. split; [discriminate|]. split; [vm_compute; reflexivity|]. split; [vm_compute; reflexivity|]. vm_compute. reflexivity. Qed.
Print Assumptions C57_null_refuted.

(** ** The computed instances of W_Json follow from the theorems *)
Scheme value_mind := Induction for value Sort Prop with items_mind := Induction for items Sort Prop with members_mind := Induction for members Sort Prop.
Definition flat_items : list json -> list token := fix go l := match l with [] => [] | [v] => flatten v | v :: l' => flatten v ++ TComma :: go l' end.
Definition flat_members : list (str * json) -> list token :=
  fix go l := match l with [] => [] | [(k, v)] => TString k :: TColon :: flatten v | (k, v) :: l' => (TString k :: TColon :: flatten v) ++ TComma :: go l' end.
Lemma value_flatten : forall ts v, value ts v -> ts = flatten v.
Proof.
  apply (value_mind (fun ts v _ => ts = flatten v) (fun ts l _ => l <> [] /\ ts = flat_items l) (fun ts l _ => l <> [] /\ ts = flat_members l)); try reflexivity.
  - intros ts l _ [_ ->]. reflexivity.
  - intros ts l _ [_ ->]. reflexivity.
  - intros ts v _ ->. split; [discriminate|reflexivity].
  - intros ts v ts' l _ -> _ [N ->]. split; [discriminate|]. destruct l; [congruence|reflexivity].
  - intros k ts v _ ->. split; [discriminate|reflexivity].
  - intros k ts v ts' l _ -> _ [N ->]. split; [discriminate|]. destruct l as [|[]]; [congruence|reflexivity].
Qed.
Lemma reads_back_holds g : profile_ok g -> match g_parent g with Some (_, None) => False | _ => True end -> reads_back g.
Proof. intros A B. destruct (C57_document g A B) as (t & D & ts & L & V). unfold reads_back. rewrite D, L, (value_flatten _ _ V). reflexivity. Qed.
Ltac okay := repeat (split || constructor || reflexivity); try (vm_compute; reflexivity).
Example w1_again : reads_back w1. Proof. apply reads_back_holds; [okay|exact I]. Qed.
Example w2_again : reads_back w2. Proof. apply reads_back_holds; [okay|exact I]. Qed.
Example w3_again : reads_back w3. Proof. apply reads_back_holds; [okay|exact I]. Qed.
Lemma time_test_holds s ns : (N.of_nat ns < 1000000000)%N -> time_test s ns = true.
Proof.
  intros B. destruct (C57_times s ns B) as (a & d & E & L & R1 & R2). unfold time_test. rewrite E. apply existsb_exists. exists (length a).
  assert (X : skipn (length a) (a ++ c_dot :: d) = c_dot :: d /\ firstn (length a) (a ++ c_dot :: d) = a).
  { clear. induction a as [|x a [IH1 IH2]]; [split; reflexivity|]. cbn [length app skipn firstn]. rewrite IH2. split; [exact IH1|reflexivity]. }
  destruct X as [-> ->]. split; [apply in_seq; rewrite app_length; cbn [length]; lia|]. rewrite L, R1, R2, !Nat.eqb_refl. reflexivity.
Qed.
Example w_times_again : forallb (fun p => time_test (fst p) (snd p)) [(0, 0); (1, 9); (10, 10); (123, 456); (2019, 1009)] = true.
Proof. cbn [forallb fst snd]. rewrite !time_test_holds; [reflexivity|vm_compute; reflexivity..]. Qed.
Lemma numbers_hold l : numbers_read l.
Proof. apply forallb_forall. intros z _. apply Z.eqb_eq. apply C57_numbers. Qed.
Example w_numbers_again : numbers_read [0; 1; -1; 10; -10; 905; -1234]%Z. Proof. apply numbers_hold. Qed.
Lemma parents_hold l : parents l.
Proof.
  apply forallb_forall. intros [[[v level] pid] file] _. unfold parent_test.
  destruct (target_environment (fun _ => None) 10 false None [] [mknode 0 v false] level pid file) as [env| |] eqn:E; [|reflexivity..].
  destruct (C56_parent _ _ _ _ _ _ _ _ _ _ false E) as (s & sh & I & A & B & C). change (entry_texts env) with (entries env). rewrite I.
  change (value_in n_MAKELEVEL s) with (value_of n_MAKELEVEL s). change (value_in n_MAKEPARENT_PID s) with (value_of n_MAKEPARENT_PID s).
  change (value_in n_MAKEPARENT_TARGET s) with (value_of n_MAKEPARENT_TARGET s). rewrite A, B, !Nat.eqb_refl. cbn [andb].
  destruct file as [|a r]; [reflexivity|]. destruct (a =?c c_minus) eqn:M; [reflexivity|]. cbn [orb]. rewrite (C a r eq_refl); [apply str_eqb_refl|].
  intros ->. rewrite eqc_refl in M. discriminate.
Qed.
Example w_parents_again : parents [([], 0, 0, []); ([], 0, 1, s2l "all"); (w_vars, 9, 432, s2l "lib/a b"); (w_vars, 99, 295, s2l "=x"); ([], 10, 0, s2l "-n"); (w_vars, 3, 7, w_odd)].
Proof. apply parents_hold. Qed.
Lemma three_holds level pid t : length t < 200 -> three level pid t.
Proof.
  intros L. destruct (C56_variables level pid t L) as (l & E & H). unfold three. match goal with |- match ?x with Some _ => _ | None => _ end => assert (E2 : x = Some l) by exact E; rewrite E2 end.
  assert (X : forall n v, In (n, v) l -> existsb (fun x => str_eqb (fst x) n && str_eqb (snd x) v) l = true).
  { intros n v J. apply existsb_exists. exists (n, v). split; [exact J|]. cbn [fst snd]. rewrite !str_eqb_refl. reflexivity. }
  rewrite !X; [reflexivity|apply H; tauto..].
Qed.
Example w_three_again : three 3 207 (s2l "all"). Proof. apply three_holds. cbn. lia. Qed.
Example w_three_longest_again : three 3 207 (repeat "a"%char 199). Proof. apply three_holds. rewrite repeat_length. lia. Qed.
