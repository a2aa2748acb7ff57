From Verif Require Import Base M_Text S_Text P_Text P_Text2 M_Var M_Expand S_Expand P_Expand M_Def P_Def M_Flags S_Flags.
Open Scope string_scope.
Open Scope list_scope.
Open Scope nat_scope.

(** ** Quoting *)

Definition bq (s : str) : str := flat_map (fun c => if isblank c || (c =?c c_bslash) then [c_bslash; c] else [c]) s.
Definition body (ws : list str) : str := concat (map (fun w => c_sp :: bq w) ws).

Lemma dd_app : forall a b, double_dollars (a ++ b) = double_dollars a ++ double_dollars b.
Proof. intros. apply flat_map_app. Qed.
Lemma bq_app : forall a b, bq (a ++ b) = bq a ++ bq b.
Proof. intros. apply flat_map_app. Qed.
Lemma quote_dd : forall s, quote_for_env s = double_dollars (bq s).
Proof.
  induction s as [|c s IH]; [reflexivity|]. cbn [quote_for_env bq flat_map]. fold (bq s). rewrite dd_app, <- IH. f_equal.
  case_eqc; [subst; reflexivity|]. destruct (isblank c || (c =?c c_bslash)) eqn:F.
  - cbn [double_dollars flat_map app]. apply Ascii.eqb_neq in E. rewrite E. reflexivity.
  - cbn [double_dollars flat_map app]. apply Ascii.eqb_neq in E. rewrite E. reflexivity.
Qed.
Definition easy (c : ascii) : bool := negb (isblank c) && negb (c =?c c_bslash).
Lemma bq_easy : forall s, forallb easy s = true -> bq s = s.
Proof.
  induction s as [|c s IH]; intros H; [reflexivity|]. cbn [forallb] in H. apply andb_true_iff in H. destruct H as [H1 H2].
  cbn [bq flat_map]. fold (bq s). rewrite (IH H2). unfold easy in H1. apply andb_true_iff in H1. destruct H1 as [H1 H3].
  apply negb_true_iff in H1. apply negb_true_iff in H3. rewrite H1, H3. reflexivity.
Qed.
Lemma bq_ne : forall s, s <> [] -> bq s <> [].
Proof. intros [|c s] H; [congruence|]. cbn [bq flat_map]. destruct (isblank c || (c =?c c_bslash)); discriminate. Qed.

Lemma bq_dollar : forall s, ~ In c_dollar s -> ~ In c_dollar (bq s).
Proof.
  intros s H K. unfold bq in K. apply in_flat_map in K. destruct K as [c [K1 K2]].
  destruct (isblank c || (c =?c c_bslash)).
  - destruct K2 as [K2|[K2|[]]]; [discriminate|]. subst. contradiction.
  - destruct K2 as [K2|[]]. subst. contradiction.
Qed.

Lemma words_bq : forall a sk cur rest,
  env_words sk cur (bq a ++ rest) = env_words (match a with [] => sk | _ => false end) (cur ++ a) rest.
Proof.
  induction a as [|c a IH]; intros sk cur rest; [cbn; rewrite app_nil_r; reflexivity|].
  cbn [bq flat_map]. fold (bq a). rewrite <- app_assoc.
  assert (G : env_words false (cur ++ [c]) (bq a ++ rest) = env_words false (cur ++ c :: a) rest).
  { rewrite IH, <- app_assoc. destruct a; reflexivity. }
  destruct (isblank c) eqn:B.
  - cbn [orb app env_words]. rewrite (eqc_refl c_bslash). exact G.
  - destruct (c =?c c_bslash) eqn:S; cbn [orb app env_words].
    + rewrite (eqc_refl c_bslash). exact G.
    + rewrite S, B. exact G.
Qed.
Lemma words_body : forall ws cur, (forall w, In w ws -> w <> []) -> env_words false cur (body ws) = cur :: ws.
Proof.
  induction ws as [|w ws IH]; intros cur H; [reflexivity|]. unfold body. cbn [map concat]. fold (body ws).
  cbn [app env_words]. change (c_sp =?c c_bslash) with false. change (isblank c_sp) with true. cbn iota. f_equal.
  rewrite words_bq. cbn [app]. destruct w as [|x w]; [exfalso; apply (H []); [left|]; reflexivity|].
  apply IH. intros v Hv. apply H. right. exact Hv.
Qed.

(** ** The table *)

Definition named (cs : switch) : Prop :=
  sw_toenv cs = true ->
  sw_env cs = true /\
  (short_option (sw_c cs) = true -> find_short (ascii_of_nat (sw_c cs)) = Some cs /\ (ascii_of_nat (sw_c cs) =?c c_minus) = false /\
     easy (ascii_of_nat (sw_c cs)) = true /\ isspace (ascii_of_nat (sw_c cs)) = false /\ ascii_of_nat (sw_c cs) <> c_eq /\
     ascii_of_nat (sw_c cs) <> c_dollar) /\
  (short_option (sw_c cs) = false -> find_long (s2l (sw_long cs)) = Some (arg_of cs, sw_c cs) /\ find_switch (sw_c cs) = Some cs /\
     existsb (fun x => x =?c c_eq) (s2l (sw_long cs)) = false /\ s2l (sw_long cs) <> [] /\ forallb easy (s2l (sw_long cs)) = true /\
     existsb (fun x => x =?c c_dollar) (s2l (sw_long cs)) = false).
Lemma table_named : Forall named switches.
Proof.
  unfold switches, ch. repeat (apply Forall_cons; [intros T; try discriminate T; (split; [reflexivity|]; split; intros S; vm_compute in S; try discriminate S; repeat split; try discriminate; vm_compute; try reflexivity; discriminate)|]).
  apply Forall_nil.
Qed.
Lemma eqc_in : forall c s, existsb (fun x => x =?c c) s = false -> ~ In c s.
Proof.
  intros c s H K. assert (existsb (fun x => x =?c c) s = true); [|congruence]. apply existsb_exists. exists c. split; [exact K|apply eqc_refl].
Qed.
