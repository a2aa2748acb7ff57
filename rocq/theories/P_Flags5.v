From Verif Require Import Base M_Text S_Text P_Text P_Text2 M_Var S_Var P_Var M_Expand S_Expand P_Expand S_Eval M_Env M_Def S_Def P_Def P_Def2
  M_Flags S_Flags P_Flags P_Flags2 P_Flags3 P_Flags4 Properties_Expand Properties_Def.
Open Scope string_scope.
Open Scope list_scope.
Open Scope nat_scope.

(** ** Every command line gives reasonable options *)
Definition kind (t : stype) : nat :=
  match t with flag | flag_off => 0 | string_ => 1 | strlist => 2 | filename => 3 | positive_int => 4 | floating => 5 | ignore => 6 end.
Lemma same_kind : forall cs cs', In cs switches -> In cs' switches -> sw_ptr cs' = sw_ptr cs -> kind (sw_type cs') = kind (sw_type cs).
Proof.
  assert (H : forallb (fun cs => forallb (fun cs' => negb (String.eqb (sw_ptr cs') (sw_ptr cs)) || (kind (sw_type cs') =? kind (sw_type cs))) switches) switches = true) by (vm_compute; reflexivity).
  intros cs cs' H1 H2 E. rewrite forallb_forall in H. specialize (H cs H1). rewrite forallb_forall in H. specialize (H cs' H2).
  rewrite E, String.eqb_refl in H. apply Nat.eqb_eq. exact H.
Qed.
Definition noarg_ok (cs : switch) : bool :=
  match sw_type cs, sw_noarg cs with
  | (string_ | strlist | filename), c_str s => negb (is_nil (s2l s))
  | (string_ | strlist | filename), _ => true
  | positive_int, c_int z => Z.eqb z 0
  | _, _ => true
  end.
Lemma noargs_ok : forallb noarg_ok switches = true.
Proof. vm_compute. reflexivity. Qed.

Section Inv.
  Variable D : Type.
  Variable atof : str -> D.
  Variable minus_one : D.
  Variable tilde : str -> option str.
  Variable env : bool.
  Notation dstate := (dstate D).
  Definition value_ok (k : nat) (v : oval D) : Prop :=
    match k with
    | 0 => v = VInt D 0 \/ v = VInt D 1
    | 1 => exists s, v = VStr D s /\ s <> Some []
    | 2 => exists l, v = VList D l /\ ~ In [] l
    | 3 => exists l, v = VList D l /\ forall f, In f l -> exists n, expand_command_line_file tilde n = Some f
    | 4 => exists z, v = VInt D z /\ (-1 <= z <= INT_MAX)%Z
    | 5 => exists d, v = VDbl D d
    | _ => True
    end.
  Definition inv (st : ostate D) : Prop := forall cs, In cs switches -> value_ok (kind (sw_type cs)) (st (sw_ptr cs)).

  Lemma inv_init : inv (o_init D minus_one).
  Proof.
    intros cs H. unfold switches in H. cbn [In] in H.
    repeat (destruct H as [<-|H]; [cbn; first [exact I|left; reflexivity|right; reflexivity|eexists; split; [reflexivity|first [discriminate|intros K; exact K|intros f []|unfold INT_MAX; lia]]|eexists; reflexivity]|]).
    destruct H.
  Qed.
  Lemma inv_set : forall st cs v, inv st -> In cs switches -> value_ok (kind (sw_type cs)) v -> inv (set_opt D st (sw_ptr cs) v).
  Proof.
    intros st cs v H Hc Hv cs' Hc'. unfold set_opt. destruct (String.eqb_spec (sw_ptr cs') (sw_ptr cs)) as [E|E]; [|exact (H cs' Hc')].
    rewrite (same_kind cs cs' Hc Hc' E). exact Hv.
  Qed.
  Lemma apply_inv : forall cs arg ws d d' ws', In cs switches -> inv (d_opts D d) ->
    apply_switch D atof minus_one tilde env cs arg ws d = Some (d', ws') -> inv (d_opts D d').
  Proof.
    intros cs arg ws d d' ws' Hc H E. pose proof noargs_ok as NA. rewrite forallb_forall in NA. specialize (NA cs Hc).
    pose proof (H cs Hc) as Hv. unfold apply_switch in E. unfold bad in E. unfold noarg_ok in NA.
    assert (SET : forall v, value_ok (kind (sw_type cs)) v -> inv (d_opts D (set_d D d (sw_ptr cs) v))) by (intros v V; apply inv_set; assumption).
    destruct (sw_type cs) eqn:TY; cbn [kind] in *.
    - inversion E; subst. destruct (negb env || sw_env cs); [|exact H]. apply SET. right. reflexivity.
    - inversion E; subst. destruct (negb env || sw_env cs); [|exact H]. apply SET. left. reflexivity.
    - destruct (negb env || sw_env cs); cbn [negb] in E; [|inversion E; subst; exact H].
      destruct arg as [[|c a]|].
      + destruct env; inversion E; subst; exact H.
      + inversion E; subst. apply SET. eexists. split; [reflexivity|discriminate].
      + destruct (sw_noarg cs) as [|s| |]; try discriminate. destruct (s2l s) as [|c a]; [discriminate|].
        inversion E; subst. apply SET. eexists. split; [reflexivity|discriminate].
    - destruct Hv as (l & V & Hl). destruct (negb env || sw_env cs); cbn [negb] in E; [|inversion E; subst; exact H].
      assert (AP : forall c a, inv (d_opts D (set_d D d (sw_ptr cs) (VList D (as_list D (d_opts D d (sw_ptr cs)) ++ [c :: a]))))).
      { intros c a. apply SET. rewrite V. eexists. split; [reflexivity|]. cbn [as_list]. intros K. apply in_app_or in K.
        destruct K as [K|[K|[]]]; [contradiction|discriminate]. }
      destruct arg as [[|c a]|].
      + destruct env; inversion E; subst; exact H.
      + inversion E; subst. apply AP.
      + destruct (sw_noarg cs) as [|s| |]; try discriminate. destruct (s2l s) as [|c a]; [discriminate|].
        inversion E; subst. apply AP.
    - destruct Hv as (l & V & Hl). destruct (negb env || sw_env cs); cbn [negb] in E; [|inversion E; subst; exact H].
      assert (AP : forall a d' ws', match expand_command_line_file tilde a with
                  | Some f => Some (set_d D d (sw_ptr cs) (VList D (as_list D (d_opts D d (sw_ptr cs)) ++ [f])), ws)
                  | None => None end = Some (d', ws') -> inv (d_opts D d')).
      { intros a d2 ws2 Q. destruct (expand_command_line_file tilde a) as [f|] eqn:F; [|discriminate]. inversion Q; subst.
        apply SET. rewrite V. eexists. split; [reflexivity|]. cbn [as_list]. intros y K. apply in_app_or in K.
        destruct K as [K|[<-|[]]]; [exact (Hl y K)|eauto]. }
      destruct arg as [[|c a]|].
      + destruct env; inversion E; subst; exact H.
      + exact (AP (c :: a) d' ws' E).
      + destruct (sw_noarg cs) as [|s| |]; try discriminate. destruct (s2l s) as [|c a]; [discriminate|]. exact (AP (c :: a) d' ws' E).
    - match type of E with (let '(_, _) := ?M in _) = _ => destruct M as [arg2 ws2] end.
      destruct (negb env || sw_env cs); cbn [negb] in E; [|inversion E; subst; exact H].
      destruct arg2 as [a|].
      + destruct (forallb is_digit a); [|destruct env; inversion E; subst; exact H].
        destruct (Z.ltb_spec INT_MAX (digits_value a)); [discriminate|].
        destruct (Z.ltb_spec (digits_value a) 1); [destruct env; inversion E; subst; exact H|]. inversion E; subst.
        apply SET. eexists. split; [reflexivity|]. lia.
      + destruct (sw_noarg cs) as [| |z|]; try discriminate. apply Z.eqb_eq in NA. subst z. inversion E; subst.
        apply SET. exists 0%Z. split; [reflexivity|]. unfold INT_MAX. lia.
    - match type of E with (let '(_, _) := ?M in _) = _ => destruct M as [arg2 ws2] end.
      destruct (negb env || sw_env cs); cbn [negb] in E; inversion E; subst; [|exact H]. apply SET. eexists. reflexivity.
    - inversion E; subst. exact H.
  Qed.
  Lemma find_in : forall c cs, find_switch c = Some cs -> In cs switches.
  Proof. intros c cs H. unfold find_switch in H. apply find_some in H. apply H. Qed.
  Lemma cluster_inv : forall l ws d d' ws', inv (d_opts D d) -> cluster D atof minus_one tilde env l ws d = Some (d', ws') -> inv (d_opts D d').
  Proof.
    induction l as [|c l IH]; intros ws d d' ws' H E; cbn [cluster] in E; [inversion E; subst; exact H|].
    destruct (find_short c) as [cs|] eqn:F; [|destruct env; [exact (IH _ _ _ _ H E)|discriminate]].
    apply find_in in F. destruct (arg_of cs).
    - destruct (apply_switch D atof minus_one tilde env cs None ws d) as [[d1 ws1]|] eqn:A; [|discriminate].
      eapply IH; [|exact E]. eapply apply_inv; eauto.
    - destruct l as [|x l]; [|eapply apply_inv; eauto]. destruct ws as [|a ws]; [|eapply apply_inv; eauto].
      unfold bad in E. destruct env; inversion E; subst; exact H.
    - destruct l as [|x l]; eapply apply_inv; eauto.
  Qed.
  Lemma long_inv : forall w ws d d' ws', inv (d_opts D d) -> long_opt D atof minus_one tilde env w ws d = Some (d', ws') -> inv (d_opts D d').
  Proof.
    intros w ws d d' ws' H E. unfold long_opt in E.
    assert (B : forall ws, bad D env d ws = Some (d', ws') -> inv (d_opts D d')) by (intros u Q; unfold bad in Q; destruct env; inversion Q; subst; exact H).
    match type of E with (let '(_, _) := ?M in _) = _ => destruct M as [n a] end.
    destruct (find_long n) as [[h c]|]; [|exact (B _ E)]. destruct (find_switch c) as [cs|] eqn:F; [|exact (B _ E)]. apply find_in in F.
    destruct h.
    - destruct (apply_switch D atof minus_one tilde env cs None ws d) as [[d1 ws1]|] eqn:A; [|discriminate]. inversion E; subst.
      eapply apply_inv; eauto.
    - destruct a as [a|]; [eapply apply_inv; eauto|]. destruct ws as [|a ws]; [exact (B _ E)|eapply apply_inv; eauto].
    - destruct a as [a|]; eapply apply_inv; eauto.
  Qed.
  Lemma loop_inv : forall n ws d d', inv (d_opts D d) -> decode_loop D atof minus_one tilde env n ws d = Some d' -> inv (d_opts D d').
  Proof.
    assert (NS : forall d a, d_opts D (non_switch D d a) = d_opts D d) by (intros d a; unfold non_switch; destruct (str_eqb a _); reflexivity).
    assert (NF : forall l d, d_opts D (fold_left (non_switch D) l d) = d_opts D d) by (induction l; intros d; cbn [fold_left]; [reflexivity|rewrite IHl; apply NS]).
    induction n as [|n IH]; intros ws d d' H E; cbn [decode_loop] in E; [discriminate|].
    destruct ws as [|w ws]; [inversion E; subst; exact H|].
    assert (N : forall a ws, decode_loop D atof minus_one tilde env n ws (non_switch D d a) = Some d' -> inv (d_opts D d')).
    { intros a u Q. eapply IH; [|exact Q]. rewrite NS. exact H. }
    destruct w as [|a [|b r]]; [exact (N _ _ E)|exact (N _ _ E)|]. destruct (negb (a =?c c_minus)); [exact (N _ _ E)|].
    destruct (b =?c c_minus).
    - destruct r as [|x r]; [inversion E; subst; rewrite NF; exact H|].
      destruct (long_opt D atof minus_one tilde env (x :: r) ws d) as [[d1 ws1]|] eqn:L; [|discriminate].
      eapply IH; [|exact E]. eapply long_inv; eauto.
    - destruct (M_Flags.cluster D atof minus_one tilde env (b :: r) ws d) as [[d1 ws1]|] eqn:L; [|discriminate].
      eapply IH; [|exact E]. eapply cluster_inv; eauto.
  Qed.

  Lemma find_kind : forall k p, existsb (fun cs => String.eqb (sw_ptr cs) p && (kind (sw_type cs) =? k)) switches = true ->
    forall st, inv st -> value_ok k (st p).
  Proof.
    intros k p H st I. apply existsb_exists in H. destruct H as (cs & H1 & H2). apply andb_true_iff in H2. destruct H2 as [H2 H3].
    apply String.eqb_eq in H2. apply Nat.eqb_eq in H3. subst. exact (I cs H1).
  Qed.
  Lemma find_kinds : forall k l, forallb (fun p => existsb (fun cs => String.eqb (sw_ptr cs) p && (kind (sw_type cs) =? k)) switches) l = true ->
    forall st p, inv st -> In p l -> value_ok k (st p).
  Proof. intros k l H st p I Hp. rewrite forallb_forall in H. apply find_kind; [exact (H p Hp)|exact I]. Qed.
  Lemma inv_reasonable : forall st, inv st -> reasonable D tilde st.
  Proof.
    intros st I. constructor.
    - intros p Hp. exact (find_kinds 0 switches_passed ltac:(vm_compute; reflexivity) st p I Hp).
    - intros p Hp. exact (find_kinds 1 strings_passed ltac:(vm_compute; reflexivity) st p I Hp).
    - intros p Hp. exact (find_kinds 2 lists_passed ltac:(vm_compute; reflexivity) st p I Hp).
    - intros p Hp. exact (find_kinds 3 files_passed ltac:(vm_compute; reflexivity) st p I Hp).
    - exact (find_kind 4 "arg_job_slots" ltac:(vm_compute; reflexivity) st I).
    - exact (find_kind 5 "max_load_average" ltac:(vm_compute; reflexivity) st I).
  Qed.
End Inv.

(** ** The command variables *)
Definition good_var (x : str * bool * str) : Prop :=
  let '(n, r, v) := x in
  n <> [] /\ (forall c, In c n -> ordinary c /\ isspace c = false) /\
  (r = true -> forall m c, n = m ++ [c] -> ~ In c (s2l "+?!")) /\
  (r = false -> ~ In c_dollar v) /\ (forall c t, v = c :: t -> isspace c = false).

Lemma name_text_plain : forall (tight : Prop) n, (forall c, In c n -> ordinary c) -> (tight -> forall m c, n = m ++ [c] -> ~ In c (s2l "+?!")) -> name_text tight n.
Proof.
  intros tight n. induction n as [|c n IH]; intros H1 H2; [constructor|]. apply nt_char; [apply H1; left; reflexivity| |].
  - intros T ->. exact (H2 T [] c eq_refl).
  - apply IH; [intros x Hx; apply H1; right; exact Hx|]. intros T m x E. apply (H2 T (c :: m)). rewrite E. reflexivity.
Qed.
Lemma var_defines : forall n r v, good_var (n, r, v) -> defines (var_word (n, r, v)) n (if r then f_recursive else f_simple) v.
Proof.
  intros n r v (N1 & N2 & N3 & N4 & N5). unfold defines, var_word. exists [], [], (if r then "=" else ":="), [].
  split; [reflexivity|]. split; [destruct r; constructor|]. split; [intros x []|]. split; [intros x []|].
  split; [exact N5|]. split; [intros c t ->; apply N2; left; reflexivity|]. split; [left; reflexivity|].
  apply name_text_plain; [intros c Hc; apply N2; exact Hc|]. intros [_ E]. apply N3. destruct r; [reflexivity|discriminate].
Qed.
