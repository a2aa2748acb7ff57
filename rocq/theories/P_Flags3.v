From Verif Require Import Base M_Text S_Text P_Text P_Text2 M_Var M_Expand S_Expand P_Expand M_Def P_Def M_Flags S_Flags P_Flags P_Flags2.
Open Scope string_scope.
Open Scope list_scope.
Open Scope nat_scope.

Definition effective (cs : switch) : bool :=
  sw_toenv cs && negb (sw_c cs =? ch "X") && match sw_type cs with flag_off => false | _ => true end.
Definition table_ok (cs : switch) : Prop :=
  sw_toenv cs = true ->
  match sw_type cs with
  | flag => (sw_default cs = no_const \/ sw_default cs = c_int 0) /\ (sw_c cs <> ch "X" -> In (sw_ptr cs) switches_passed)
  | flag_off => sw_default cs = c_int 0 /\ In (sw_ptr cs) switches_passed
  | string_ => In (sw_ptr cs) strings_passed
  | strlist => In (sw_ptr cs) lists_passed /\ sw_ptr cs <> "eval_strings"
  | filename => In (sw_ptr cs) files_passed
  | positive_int => sw_ptr cs = "arg_job_slots" /\ sw_default cs = c_int (-1) /\ sw_noarg cs = c_int 0
  | floating => sw_ptr cs = "max_load_average" /\ sw_default cs = c_load
  | ignore => False
  end.
Ltac in_list := cbn; repeat (first [left; reflexivity | right]).
Lemma table_kinds : Forall table_ok switches.
Proof.
  unfold switches. repeat (apply Forall_cons; [intros T; try discriminate T; cbn -[passed strings_passed switches_passed lists_passed files_passed];
    repeat split; try (left; reflexivity); try (right; reflexivity); try discriminate; try (intros NX; try (exfalso; apply NX; reflexivity)); in_list|]).
  apply Forall_nil.
Qed.
Fixpoint distinct (l : list string) : bool :=
  match l with [] => true | x :: l' => negb (existsb (String.eqb x) l') && distinct l' end.
Lemma distinct_nodup : forall l, distinct l = true -> NoDup l.
Proof.
  induction l as [|x l IH]; intros H; [constructor|]. cbn [distinct] in H. apply andb_true_iff in H. destruct H as [H1 H2].
  constructor; [|exact (IH H2)]. intros K. apply negb_true_iff in H1. assert (existsb (String.eqb x) l = true); [|congruence].
  apply existsb_exists. exists x. split; [exact K|apply String.eqb_refl].
Qed.
Lemma table_nodup : NoDup (map sw_ptr (filter effective switches)).
Proof. apply distinct_nodup. vm_compute. reflexivity. Qed.
Lemma no_eval : ~ In "eval_strings" (map sw_ptr (filter effective switches)).
Proof.
  assert (H : existsb (String.eqb "eval_strings") (map sw_ptr (filter effective switches)) = false) by (vm_compute; reflexivity).
  intros K. assert (existsb (String.eqb "eval_strings") (map sw_ptr (filter effective switches)) = true); [|congruence].
  apply existsb_exists. exists "eval_strings". split; [exact K|apply String.eqb_refl].
Qed.
Lemma not_X : forall cs, In cs switches -> sw_type cs <> flag -> sw_c cs =? ch "X" = false.
Proof.
  assert (H : forallb (fun cs => match sw_type cs with flag => true | _ => negb (sw_c cs =? ch "X") end) switches = true) by (vm_compute; reflexivity).
  rewrite forallb_forall in H. intros cs Hc Ht. specialize (H cs Hc). destruct (sw_type cs); try congruence; apply negb_true_iff; exact H.
Qed.
Lemma passed_iff : forall p, In p passed <-> (p = "eval_strings" \/ In p (map sw_ptr (filter effective switches))).
Proof.
  assert (A : forallb (fun p => String.eqb p "eval_strings" || existsb (String.eqb p) (map sw_ptr (filter effective switches))) passed = true) by (vm_compute; reflexivity).
  assert (B : forallb (fun p => existsb (String.eqb p) passed) (map sw_ptr (filter effective switches)) = true) by (vm_compute; reflexivity).
  rewrite forallb_forall in A, B. intros p. split.
  - intros H. apply A in H. apply orb_true_iff in H. destruct H as [H|H]; [left; apply String.eqb_eq; exact H|right].
    apply existsb_exists in H. destruct H as [x [H1 H2]]. apply String.eqb_eq in H2. subst. exact H1.
  - intros [->|H]; [unfold passed; apply in_or_app; right; apply in_or_app; right; apply in_or_app; left; in_list|].
    apply B in H. apply existsb_exists in H. destruct H as [x [H1 H2]]. apply String.eqb_eq in H2. subst. exact H1.
Qed.

Lemma digits_show : forall n, forallb is_digit (show_nat n) = true /\ digits_value (show_nat n) = Z.of_nat n /\ show_nat n <> [] /\ ~ In c_dollar (show_nat n).
Proof.
  intros n. unfold show_nat.
  assert (H : Forall is_dig (show_loop (S n) n [])) by (apply show_loop_digits; constructor).
  split; [|split; [|split]].
  - apply forallb_forall. intros c Hc. rewrite Forall_forall in H. specialize (H c Hc). unfold is_dig in H. unfold is_digit.
    apply andb_true_iff. rewrite !Nat.leb_le. exact H.
  - unfold digits_value. transitivity (dec_value (show_loop (S n) n [])).
    + unfold dec_value. generalize 0%Z. induction (show_loop (S n) n []) as [|c l IH]; intros z; [reflexivity|]. cbn [fold_left]. inversion H; subst.
      replace (10 * z + (Z.of_nat (nat_of_ascii c) - 48))%Z with (z * 10 + (Z.of_nat (nat_of_ascii c) - 48))%Z by lia. apply IH. assumption.
    + unfold dec_value. rewrite show_loop_val by lia. reflexivity.
  - cbn [show_loop]. destruct (n / 10 =? 0); [discriminate|]. apply show_loop_ne. discriminate.
  - intros Hc. rewrite Forall_forall in H. specialize (H _ Hc). unfold is_dig in H. vm_compute in H. lia.
Qed.

(** ** File names *)
Lemma skip_slashes_head : forall s, match skip_slashes s with c :: _ => c <> c_slash | [] => True end.
Proof. induction s as [|c s IH]; [exact I|]. cbn [skip_slashes]. case_eqc; [exact IH|exact E]. Qed.
Lemma skip_slashes_len : forall s, length (skip_slashes s) <= length s.
Proof. induction s as [|c s IH]; [apply le_n|]. cbn [skip_slashes]. destruct (c =?c c_slash); cbn [length] in *; lia. Qed.
Lemma strip_stable : forall n s, length s <= n ->
  match strip_dot_slash n s with a :: b :: _ => a = c_dot -> b <> c_slash | _ => True end.
Proof.
  induction n as [|n IH]; intros s H.
  - destruct s; [exact I|cbn in H; lia].
  - destruct s as [|a [|b s]]; [exact I|exact I|]. cbn [strip_dot_slash].
    destruct ((a =?c c_dot) && (b =?c c_slash)) eqn:E.
    + apply IH. pose proof (skip_slashes_len s). cbn [length] in H. lia.
    + intros -> ->. rewrite !eqc_refl in E. discriminate.
Qed.
Lemma strip_fix : forall n s, match s with a :: b :: _ => a = c_dot -> b <> c_slash | _ => True end -> strip_dot_slash n s = s.
Proof.
  intros [|n] s H; [reflexivity|]. destruct s as [|a [|b s]]; [reflexivity..|]. cbn [strip_dot_slash].
  destruct ((a =?c c_dot) && (b =?c c_slash)) eqn:E; [|reflexivity]. apply andb_true_iff in E. destruct E as [E1 E2].
  apply eqc_true in E1. apply eqc_true in E2. destruct (H E1 E2).
Qed.
Lemma file_name_stable : forall tilde n f, expand_command_line_file tilde n = Some f ->
  f <> [] /\ ((forall s, f <> c_tilde :: s) -> expand_command_line_file tilde f = Some f).
Proof.
  intros tilde n f H. unfold expand_command_line_file in H. destruct n as [|c n]; [discriminate|].
  set (m := if c =?c c_tilde then _ else _) in H. pose proof (strip_stable (length m) m (le_n _)) as S.
  destruct (strip_dot_slash (length m) m) as [|x t] eqn:E.
  - inversion H; subst f. split; [discriminate|]. intros _. reflexivity.
  - inversion H; subst f. split; [discriminate|]. intros T. unfold expand_command_line_file.
    assert (Q : (x =?c c_tilde) = false) by (apply Ascii.eqb_neq; intros ->; exact (T t eq_refl)).
    rewrite Q, strip_fix by exact S. reflexivity.
Qed.

Section Fl.
  Variable D : Type.
  Variable fmt_g : D -> str.
  Variable atof : str -> D.
  Variable deqb : D -> D -> bool.
  Variable minus_one : D.
  Variable tilde : str -> option str.
  Notation ostate := (ostate D).
  Notation dstate := (dstate D).
  Notation flag_list := (flag_list D fmt_g deqb minus_one true false).
  Notation flags_of := (flags_of D fmt_g deqb minus_one true).
  Notation effect := (effect D atof).

  Variable st : ostate.
  Hypothesis R : reasonable D tilde st.
  Hypothesis NT : no_tildes D st.
  Hypothesis LOAD : forall d, st "max_load_average" = VDbl D d ->
    (deqb d minus_one = true -> d = minus_one) /\ (deqb d minus_one = false -> atof (fmt_g d) = d /\ fmt_g d <> []).

  Lemma good_entry : forall x, In x (flag_list st) -> good tilde x.
  Proof.
    intros x H. pose proof (flag_list_known _ _ _ _ _ _ H) as K. split; [exact K|].
    unfold M_Flags.flag_list in H. apply in_flat_map in H. destruct H as [cs [H1 H2]].
    pose proof table_kinds as TK. rewrite Forall_forall in TK. specialize (TK cs H1).
    destruct (sw_toenv cs) eqn:T; cbn [andb orb negb] in H2; [|destruct H2].
    pose proof (flags_of_fst _ _ _ _ _ _ _ H2) as E. rewrite E. specialize (TK T).
    unfold M_Flags.flags_of in H2. destruct (sw_type cs) eqn:TY; try contradiction.
    - destruct (_ && _) in H2; [|destruct H2]. destruct (_ =? _) in H2; [destruct H2|]. destruct H2 as [<-|[]]. exact I.
    - destruct (_ && _) in H2; [|destruct H2]. destruct (_ =? _) in H2; [destruct H2|]. destruct H2 as [<-|[]]. exact I.
    - destruct (r_string _ _ _ R _ TK) as (s & Es & Hs). rewrite Es in H2. cbn [as_str] in H2.
      destruct s as [s|]; [|destruct H2]. destruct H2 as [<-|[]]. cbn [snd]. intros ->. apply Hs. reflexivity.
    - destruct (r_list _ _ _ R _ (proj1 TK)) as (l & Es & Hs). rewrite Es in H2. cbn [as_list] in H2.
      apply in_map_iff in H2. destruct H2 as (s & <- & Hl). cbn [snd]. intros ->. contradiction.
    - destruct (r_file _ _ _ R _ TK) as (l & Es & Hs). rewrite Es in H2. cbn [as_list] in H2.
      apply in_map_iff in H2. destruct H2 as (s & <- & Hl). cbn [snd]. destruct (Hs s Hl) as [n Hn].
      destruct (file_name_stable _ _ _ Hn) as [F1 F2]. split; [exact F1|]. apply F2. intros t ->. exact (NT _ _ _ TK Es Hl).
    - destruct TK as (P & P1 & P2). rewrite P1, P2 in H2. destruct (r_jobs _ _ _ R) as (z & Ez & Hz). rewrite P, Ez in H2. cbn [as_int] in H2.
      destruct (Z.eqb_spec z (-1)); [destruct H2|]. destruct (Z.eqb_spec z 0); destruct H2 as [<-|[]]; cbn [snd]; [exact P2|].
      destruct (digits_show (Z.to_nat z)) as (D1 & D2 & D3 & _). destruct (show_nat (Z.to_nat z)) as [|c r] eqn:S; [congruence|].
      split; [exact D1|]. rewrite D2. lia.
    - destruct TK as (P & P1). rewrite P1 in H2. destruct (r_load _ _ _ R) as (d & Ed). rewrite P, Ed in H2. cbn [as_dbl] in H2.
      destruct (LOAD d Ed) as [L1 L2]. destruct (deqb d minus_one); [destruct H2|]. destruct (L2 eq_refl) as [L3 L4].
      assert (H3 : In x [(cs, Some (fmt_g d))]) by (destruct (sw_noarg cs); exact H2). destruct H3 as [<-|[]]. exact L4.
  Qed.

  (** ** The state after the words *)
  Lemma fold_append : forall cs l d, (sw_type cs = strlist \/ sw_type cs = filename) ->
    let d' := fold_left effect (map (fun s => (cs, Some s)) l) d in
    d_args D d' = d_args D d /\
    (l = [] -> d' = d) /\
    (l <> [] -> forall q, d_opts D d' q = if String.eqb q (sw_ptr cs) then VList D (as_list D (d_opts D d (sw_ptr cs)) ++ l) else d_opts D d q).
  Proof.
    intros cs l. induction l as [|s l IH]; intros d H; cbn zeta; cbn [map fold_left].
    - split; [reflexivity|]. split; [reflexivity|congruence].
    - destruct (IH (effect d (cs, Some s)) H) as (A1 & A2 & A3). cbn zeta in *.
      assert (E : effect d (cs, Some s) = set_d D d (sw_ptr cs) (VList D (as_list D (d_opts D d (sw_ptr cs)) ++ [s]))).
      { unfold P_Flags2.effect. cbn [fst snd]. destruct H as [H|H]; rewrite H; reflexivity. }
      rewrite E in *. split; [rewrite A1; reflexivity|]. split; [discriminate|]. intros _ q.
      destruct l as [|s2 l].
      + cbn [map fold_left]. unfold set_d, set_opt. cbn [d_opts]. destruct (String.eqb_spec q (sw_ptr cs)); reflexivity.
      + rewrite A3 by discriminate. unfold set_d, set_opt. cbn [d_opts]. rewrite String.eqb_refl. cbn [as_list].
        destruct (String.eqb_spec q (sw_ptr cs)); [rewrite <- app_assoc; reflexivity|reflexivity].
  Qed.
  Lemma switch_result : forall cs d, In cs switches -> sw_toenv cs = true ->
    (effective cs = true -> d_opts D d (sw_ptr cs) = o_init D minus_one (sw_ptr cs)) ->
    let d' := fold_left effect (flags_of st cs) d in
    d_args D d' = d_args D d /\
    forall q, d_opts D d' q = if effective cs && String.eqb q (sw_ptr cs) then st q else d_opts D d q.
  Proof.
    intros cs d Hin T H0. pose proof table_kinds as TK. rewrite Forall_forall in TK. specialize (TK cs Hin T).
    assert (I0 : forall v, o_init D minus_one (sw_ptr cs) = v -> effective cs = true -> st (sw_ptr cs) = v ->
       d_args D d = d_args D d /\ forall q, d_opts D d q = if effective cs && String.eqb q (sw_ptr cs) then st q else d_opts D d q).
    { intros v E1 E2 E3. split; [reflexivity|]. intros q. rewrite E2. cbn [andb]. destruct (String.eqb_spec q (sw_ptr cs)); [|reflexivity].
      subst q. rewrite (H0 E2). congruence. }
    assert (I1 : forall v, effective cs = true -> st (sw_ptr cs) = v ->
       d_args D (set_d D d (sw_ptr cs) v) = d_args D d /\
       forall q, d_opts D (set_d D d (sw_ptr cs) v) q = if effective cs && String.eqb q (sw_ptr cs) then st q else d_opts D d q).
    { intros v E1 E2. split; [reflexivity|]. intros q. rewrite E1. cbn [andb]. unfold set_d, set_opt. cbn [d_opts].
      destruct (String.eqb_spec q (sw_ptr cs)); [|reflexivity]. subst q. congruence. }
    assert (I2 : effective cs = false ->
       d_args D d = d_args D d /\ forall q, d_opts D d q = if effective cs && String.eqb q (sw_ptr cs) then st q else d_opts D d q).
    { intros ->. split; reflexivity. }
    cbn zeta. unfold M_Flags.flags_of.
    assert (INI : forall p, match find (fun cs => String.eqb (sw_ptr cs) p) switches with
       | Some cs' => o_init D minus_one p = match sw_type cs' with
          | string_ => VStr D None | strlist | filename => VList D [] | positive_int => VInt D (-1) | floating => VDbl D minus_one
          | _ => if String.eqb p "use_readline_flag" then VInt D 1 else VInt D 0 end | None => True end).
    { intros p. unfold o_init. destruct (find _ _) as [cs'|]; [destruct (sw_type cs'); reflexivity|exact I]. }
    destruct (sw_type cs) eqn:TY; try contradiction.
    - destruct TK as [DF PT]. destruct (Nat.eqb_spec (sw_c cs) (ch "X")) as [X|X].
      + assert (EF : effective cs = false) by (unfold effective; rewrite X, T; reflexivity).
        destruct (_ && _); apply I2; exact EF.
      + assert (EF : effective cs = true) by (unfold effective; rewrite (proj2 (Nat.eqb_neq _ _) X), T, TY; reflexivity).
        assert (IV : o_init D minus_one (sw_ptr cs) = VInt D 0).
        { specialize (PT X). clear - PT. unfold switches_passed in PT. cbn [In] in PT.
          repeat (destruct PT as [<-|PT]; [vm_compute; reflexivity|]). destruct PT. }
        destruct (r_switch _ _ _ R _ (PT X)) as [V|V]; rewrite V; cbn [as_int].
        * cbn [Z.eqb Bool.eqb andb fold_left]. eapply I0; eauto.
        * destruct DF as [DF|DF]; rewrite DF; cbn [Z.eqb Bool.eqb andb negb fold_left]; unfold P_Flags2.effect; cbn [fst snd]; rewrite TY; apply I1; assumption.
    - destruct TK as [DF PT]. assert (EF : effective cs = false) by (unfold effective; rewrite TY, andb_false_r; reflexivity).
      rewrite DF. destruct (r_switch _ _ _ R _ PT) as [V|V]; rewrite V; cbn; apply I2; exact EF.
    - assert (X : sw_c cs =? ch "X" = false).
      { apply not_X; [exact Hin|rewrite TY; discriminate]. }
      assert (EF : effective cs = true) by (unfold effective; rewrite X, T, TY; reflexivity).
      assert (IV : o_init D minus_one (sw_ptr cs) = VStr D None).
      { clear - TK. unfold strings_passed in TK. cbn [In] in TK. repeat (destruct TK as [<-|TK]; [vm_compute; reflexivity|]). destruct TK. }
      destruct (r_string _ _ _ R _ TK) as (s & V & _). rewrite V. cbn [as_str]. destruct s as [s|]; cbn [fold_left].
      + unfold P_Flags2.effect. cbn [fst snd]. rewrite TY. apply I1; assumption.
      + eapply I0; eauto.
    - assert (X : sw_c cs =? ch "X" = false).
      { apply not_X; [exact Hin|rewrite TY; discriminate]. }
      assert (EF : effective cs = true) by (unfold effective; rewrite X, T, TY; reflexivity).
      assert (IV : o_init D minus_one (sw_ptr cs) = VList D []).
      { destruct TK as [TK _]. clear - TK. unfold lists_passed in TK. cbn [In] in TK. repeat (destruct TK as [<-|TK]; [vm_compute; reflexivity|]). destruct TK. }
      destruct (r_list _ _ _ R _ (proj1 TK)) as (l & V & _). rewrite V. cbn [as_list].
      destruct (fold_append cs l d (or_introl TY)) as (A1 & A2 & A3). cbn zeta in *. destruct l as [|s l].
      + rewrite (A2 eq_refl). eapply I0; eauto.
      + split; [exact A1|]. intros q. rewrite A3 by discriminate. rewrite EF. cbn [andb].
        destruct (String.eqb_spec q (sw_ptr cs)); [|reflexivity]. subst q. rewrite (H0 EF), IV. cbn [as_list app]. symmetry. exact V.
    - assert (X : sw_c cs =? ch "X" = false).
      { apply not_X; [exact Hin|rewrite TY; discriminate]. }
      assert (EF : effective cs = true) by (unfold effective; rewrite X, T, TY; reflexivity).
      assert (IV : o_init D minus_one (sw_ptr cs) = VList D []).
      { clear - TK. unfold files_passed in TK. cbn [In] in TK. repeat (destruct TK as [<-|TK]; [vm_compute; reflexivity|]). destruct TK. }
      destruct (r_file _ _ _ R _ TK) as (l & V & _). rewrite V. cbn [as_list].
      destruct (fold_append cs l d (or_intror TY)) as (A1 & A2 & A3). cbn zeta in *. destruct l as [|s l].
      + rewrite (A2 eq_refl). eapply I0; eauto.
      + split; [exact A1|]. intros q. rewrite A3 by discriminate. rewrite EF. cbn [andb].
        destruct (String.eqb_spec q (sw_ptr cs)); [|reflexivity]. subst q. rewrite (H0 EF), IV. cbn [as_list app]. symmetry. exact V.
    - destruct TK as (P & P1 & P2). assert (X : sw_c cs =? ch "X" = false).
      { apply not_X; [exact Hin|rewrite TY; discriminate]. }
      assert (EF : effective cs = true) by (unfold effective; rewrite X, T, TY; reflexivity).
      assert (IV : o_init D minus_one (sw_ptr cs) = VInt D (-1)) by (rewrite P; reflexivity).
      destruct (r_jobs _ _ _ R) as (z & V & Hz). rewrite <- P in V. rewrite P1, P2, V. cbn [as_int].
      destruct (Z.eqb_spec z (-1)); [subst; cbn [fold_left]; eapply I0; eauto|].
      destruct (Z.eqb_spec z 0); cbn [fold_left]; unfold P_Flags2.effect; cbn [fst snd]; rewrite TY.
      + subst. apply I1; assumption.
      + destruct (digits_show (Z.to_nat z)) as (D1 & D2 & D3 & _). destruct (show_nat (Z.to_nat z)) as [|c r] eqn:S; [congruence|].
        rewrite <- S in *. replace (digits_value (show_nat (Z.to_nat z))) with z by lia. apply I1; assumption.
    - destruct TK as (P & P1). assert (X : sw_c cs =? ch "X" = false).
      { apply not_X; [exact Hin|rewrite TY; discriminate]. }
      assert (EF : effective cs = true) by (unfold effective; rewrite X, T, TY; reflexivity).
      assert (IV : o_init D minus_one (sw_ptr cs) = VDbl D minus_one) by (rewrite P; reflexivity).
      destruct (r_load _ _ _ R) as (x & V). destruct (LOAD x V) as [L1 L2]. rewrite <- P in V. rewrite P1, V. cbn [as_dbl].
      destruct (deqb x minus_one) eqn:Q.
      + cbn [fold_left]. rewrite (L1 eq_refl) in V. eapply I0; eauto.
      + destruct (L2 eq_refl) as [L3 L4]. assert (G : forall A (a b : A), (if match sw_noarg cs with c_load => false | _ => false end then a else b) = b) by (intros; destruct (sw_noarg cs); reflexivity).
        rewrite G. cbn [fold_left]. unfold P_Flags2.effect. cbn [fst snd]. rewrite TY, L3. apply I1; assumption.
  Qed.

  Lemma switches_result : forall l d, (forall cs, In cs l -> In cs switches) -> NoDup (map sw_ptr (filter effective l)) ->
    (forall cs, In cs l -> effective cs = true -> d_opts D d (sw_ptr cs) = o_init D minus_one (sw_ptr cs)) ->
    let d' := fold_left effect (flat_map (fun cs => if sw_toenv cs && (negb false || negb (sw_nomk cs)) then flags_of st cs else []) l) d in
    d_args D d' = d_args D d /\
    forall q, (In q (map sw_ptr (filter effective l)) -> d_opts D d' q = st q) /\
              (~ In q (map sw_ptr (filter effective l)) -> d_opts D d' q = d_opts D d q).
  Proof.
    induction l as [|cs l IH]; intros d H1 H2 H3; cbn zeta.
    - split; [reflexivity|]. intros q. split; [intros []|reflexivity].
    - cbn [flat_map]. rewrite fold_left_app. cbn [negb orb]. rewrite andb_true_r.
      set (d1 := fold_left effect (if sw_toenv cs then flags_of st cs else []) d).
      assert (A : d_args D d1 = d_args D d /\ forall q, d_opts D d1 q = if effective cs && String.eqb q (sw_ptr cs) then st q else d_opts D d q).
      { unfold d1. destruct (sw_toenv cs) eqn:T.
        - apply switch_result; [apply H1; left; reflexivity|exact T|]. intros E. apply H3; [left; reflexivity|exact E].
        - cbn [fold_left]. unfold effective. rewrite T. split; reflexivity. }
      destruct A as [A1 A2]. cbn [filter] in *.
      assert (H2' : NoDup (map sw_ptr (filter effective l))) by (destruct (effective cs); [cbn [map] in H2; inversion H2; assumption|exact H2]).
      destruct (IH d1) as [B1 B2]; [intros; apply H1; right; assumption|exact H2'| |].
      { intros cs' Hc E. rewrite A2. destruct (effective cs) eqn:Ec; cbn [andb]; [|apply H3; [right; exact Hc|exact E]].
        destruct (String.eqb_spec (sw_ptr cs') (sw_ptr cs)) as [Q|Q]; [|apply H3; [right; exact Hc|exact E]].
        exfalso. cbn [map] in H2. inversion H2 as [|? ? N]; subst. apply N. rewrite <- Q. apply in_map. apply filter_In. split; assumption. }
      cbn zeta in B1, B2. cbn [negb orb] in B1, B2.
      split; [exact (eq_trans B1 A1)|]. intros q. destruct (B2 q) as [B3 B4]. split.
      + intros Hq. destruct (in_dec string_dec q (map sw_ptr (filter effective l))) as [J|J]; [exact (B3 J)|].
        destruct (effective cs) eqn:Ec; [|contradiction]. destruct Hq as [<-|Hq]; [|contradiction].
        etransitivity; [exact (B4 J)|]. rewrite A2. rewrite String.eqb_refl. reflexivity.
      + intros Hq. assert (J : ~ In q (map sw_ptr (filter effective l))) by (intros J; apply Hq; destruct (effective cs); [right|]; exact J).
        etransitivity; [exact (B4 J)|]. rewrite A2. destruct (effective cs) eqn:Ec; [|reflexivity]. cbn [andb].
        destruct (String.eqb_spec q (sw_ptr cs)); [|reflexivity]. exfalso. apply Hq. left. congruence.
  Qed.
  Lemma evals_result : forall l d, 
    let d' := fold_left (add_eval D) l d in
    d_args D d' = d_args D d /\ (l = [] -> d' = d) /\
    (forall q, l <> [] -> d_opts D d' q = if String.eqb q "eval_strings" then VList D (as_list D (d_opts D d "eval_strings") ++ l) else d_opts D d q).
  Proof.
    induction l as [|s l IH]; intros d; cbn zeta; cbn [fold_left]; [split; [reflexivity|]; split; [reflexivity|]; congruence|].
    destruct (IH (add_eval D d s)) as (A1 & A2 & A3). cbn zeta in *. split; [rewrite A1; reflexivity|]. split; [discriminate|]. intros q _.
    destruct l as [|s2 l]; [cbn [fold_left]; unfold add_eval, set_d, set_opt; cbn [d_opts]; destruct (String.eqb q "eval_strings"); reflexivity|].
    rewrite A3 by discriminate. unfold add_eval, set_d, set_opt. cbn [d_opts as_list]. rewrite String.eqb_refl. cbn [as_list].
    rewrite <- app_assoc. destruct (String.eqb q "eval_strings"); reflexivity.
  Qed.

  (** The words of MAKEFLAGS give back the options. *)
  Lemma decode_back : forall g r over cvs, simple_group (flag_list st) = (g, r) ->
    (forall w, In w cvs -> w <> [] /\ w <> s2l "-") ->
    exists d, decode_value D atof minus_one tilde
      (g ++ body (map flag_word r ++ map eval_word (as_list D (st "eval_strings")) ++ (if over : bool then s2l "--" :: cvs else [])))
      (mkds D (o_init D minus_one) []) = Some d /\
      handed_down D minus_one st (d_opts D d) /\ d_args D d = if over then cvs else [].
  Proof.
    intros g r over cvs Hg Hc.
    destruct (r_list _ _ _ R "eval_strings") as (l & V & Hl); [in_list|]. rewrite V. cbn [as_list].
    pose proof (decode_all D atof minus_one tilde (flag_list st) g r l over cvs (mkds D (o_init D minus_one) []) Hg good_entry Hl Hc) as DA.
    cbn zeta in DA. eexists. split; [exact DA|]. cbn [d_opts d_args].
    destruct (switches_result switches (mkds D (o_init D minus_one) []) (fun _ H => H) table_nodup (fun _ _ _ => eq_refl)) as [B1 B2].
    fold (flag_list st) in B1, B2. set (d1 := fold_left effect (flag_list st) _) in *.
    destruct (evals_result l d1) as (E1 & E2 & E3). cbn zeta in *.
    split.
    - split.
      + intros p Hp. apply passed_iff in Hp.
        pose proof no_eval as NE.
        destruct l as [|s l].
        * rewrite (E2 eq_refl). destruct Hp as [->|Hp]; [|exact (proj1 (B2 p) Hp)].
          rewrite (proj2 (B2 "eval_strings") NE). rewrite V. reflexivity.
        * rewrite E3 by discriminate. destruct (String.eqb_spec p "eval_strings") as [->|Q].
          -- rewrite (proj2 (B2 "eval_strings") NE), V. reflexivity.
          -- destruct Hp as [Hp|Hp]; [contradiction|exact (proj1 (B2 p) Hp)].
      + intros p Hp. rewrite passed_iff in Hp.
        assert (X : d_opts D d1 p = o_init D minus_one p) by (apply (proj2 (B2 p)); intros J; apply Hp; right; exact J).
        destruct l as [|s l]; [rewrite (E2 eq_refl); exact X|]. rewrite E3 by discriminate.
        destruct (String.eqb_spec p "eval_strings") as [Q|Q]; [exfalso; apply Hp; left; exact Q|exact X].
    - rewrite E1, B1. reflexivity.
  Qed.
End Fl.
