(** C68: the environment with which make is run again. *)
From Coq Require Import Lia String List.
From Verif Require Import Base M_Text M_Line M_Implicit M_Auto M_Ar S_Text S_Ar P_Ar M_RestartEnv.
Open Scope string_scope.
Open Scope list_scope.
Open Scope nat_scope.

(** The word gives a value to [name]. *)
Definition gives (name : string) (w : str) : Prop := exists v, w = s2l name ++ c_eq :: v.
Definition mentions (w : str) : Prop := gives "MAKE_RESTARTS" w \/ gives "MAKELEVEL" w.

Lemma behind_some p : forall w v, behind p w = Some v <-> w = p ++ v.
Proof.
  induction p as [| a p IH]; intros w v; cbn [behind app]; [split; congruence|]. destruct w as [| b w]; [split; discriminate|]. destruct (a =?c b) eqn:E.
  - apply eqc_true in E. subst b. rewrite IH. split; congruence.
  - split; [discriminate|]. intros H. injection H as -> _. rewrite eqc_refl in E. discriminate.
Qed.
Lemma behind_none p w : behind p w = None <-> forall v, w <> p ++ v.
Proof. destruct (behind p w) as [v|] eqn:E; split; try congruence. - intros H. apply behind_some in E. destruct (H v E). - intros _ v Q. apply behind_some in Q. congruence. Qed.
Lemma gives_r w : gives "MAKE_RESTARTS" w <-> exists v, w = k_restarts ++ v.
Proof. unfold gives, k_restarts. split; intros (v & ->); exists v; reflexivity. Qed.
Lemma gives_l w : gives "MAKELEVEL" w <-> exists v, w = k_level ++ v.
Proof. unfold gives, k_level. split; intros (v & ->); exists v; reflexivity. Qed.

Lemma show_atoi z : (0 <= z < 2 ^ 32)%Z -> unsigned (atoi (show_lu z)) = z.
Proof.
  intros B. destruct (show_number z) as (N & L); [change (10 ^ 11)%Z with 100000000000%Z; change (2 ^ 32)%Z with 4294967296%Z in B; lia|].
  unfold atoi. rewrite <- (app_nil_r (show_lu z)). rewrite (atol_number _ _ [] N); [|lia|discriminate]. unfold unsigned, to_int.
  rewrite Zminus_mod_idemp_l. replace (z + 2 ^ 31 - 2 ^ 31)%Z with z by lia. apply Z.mod_small. exact B.
Qed.
Lemma show_first z : (0 <= z < 2 ^ 32)%Z -> exists c r, show_lu z = c :: r /\ (c =?c c_minus) = false.
Proof.
  intros B. destruct (show_number z) as ((NE & F & _) & _); [change (10 ^ 11)%Z with 100000000000%Z; change (2 ^ 32)%Z with 4294967296%Z in B; lia|].
  destruct (show_lu z) as [| c r]; [congruence|]. exists c, r. split; auto. inversion F as [| ? ? D _]; subst. destruct (c =?c c_minus) eqn:E; auto. apply eqc_true in E. rewrite E in D. unfold is_dig in D. change (nat_of_ascii c_minus) with 45 in D. lia.
Qed.
Lemma read_word s traced r : (0 <= r < 2 ^ 32)%Z -> read_restarts s (restarts_word traced r) = (r, traced || snd s).
Proof.
  intros B. unfold read_restarts, restarts_word. replace (behind k_restarts _) with (Some ((if traced then [c_minus] else []) ++ show_lu r)) by (symmetry; apply behind_some; reflexivity).
  destruct traced; cbn [app orb].
  - change (c_minus =?c c_minus) with true. cbn iota. rewrite show_atoi by exact B. reflexivity.
  - destruct (show_first r B) as (c & q & E & C). rewrite E, C, <- E, show_atoi by exact B. reflexivity.
Qed.
Lemma patch_spec level traced env : forall r, exists l r', patch_env level traced r env = (l, r') /\
  Forall2 (fun w w' => (gives "MAKELEVEL" w /\ w' = s2l "MAKELEVEL=" ++ show_lu level) \/ (gives "MAKE_RESTARTS" w /\ gives "MAKE_RESTARTS" w') \/ (~ mentions w /\ w' = w)) env l /\
  ((forall w, In w env -> ~ gives "MAKE_RESTARTS" w) -> r' = r /\ forall s, fold_left read_restarts l s = s) /\
  (forall a w b, env = a ++ w :: b -> gives "MAKE_RESTARTS" w -> (forall x, In x (a ++ b) -> ~ gives "MAKE_RESTARTS" x) -> (0 <= r < 2 ^ 32)%Z -> r' = 0%Z /\ forall s, fold_left read_restarts l s = (r, traced || snd s)).
Proof.
  induction env as [| w env IH]; intros r; cbn [patch_env].
  { exists [], r. repeat split; auto. - destruct a; discriminate. - destruct a; discriminate. }
  destruct (behind k_level w) as [v|] eqn:E1; [|destruct (behind k_restarts w) as [v|] eqn:E2].
  - apply behind_some in E1. destruct (IH r) as (l & r' & E & F & N1 & N2). rewrite E. exists ((k_level ++ show_lu level) :: l), r'. split; auto.
    assert (SK : forall s, read_restarts s (k_level ++ show_lu level) = s) by (intros s; reflexivity).
    split; [|split].
    + constructor; auto. left. split; [apply gives_l; eauto|reflexivity].
    + intros H. destruct N1 as (-> & G); [intros x I; apply H; right; exact I|]. split; [reflexivity|]. intros s. cbn [fold_left]. rewrite SK. apply G.
    + intros a x b Q G O B. destruct a as [| y a]; cbn [app] in Q; injection Q as <- ->.
      * exfalso. apply gives_r in G. destruct G as (v' & G). rewrite E1 in G. discriminate G.
      * destruct (N2 a x b eq_refl G) as (-> & X); [intros z I; apply O; right; exact I|exact B|]. split; [reflexivity|]. intros s. cbn [fold_left]. rewrite SK. apply X.
  - apply behind_some in E2. destruct (IH 0%Z) as (l & r' & E & F & N1 & N2). rewrite E. exists (restarts_word traced r :: l), r'. split; auto. split; [|split].
    + constructor; auto. right. left. split; [apply gives_r; eauto|]. apply gives_r. unfold restarts_word. eauto.
    + intros H. exfalso. apply (H w); [left; reflexivity|]. apply gives_r. eauto.
    + intros a x b Q G O B. destruct a as [| y a]; cbn [app] in Q; injection Q as <- ->.
      * destruct N1 as (-> & X); [exact O|]. split; [reflexivity|]. intros s. cbn [fold_left]. rewrite read_word by exact B. apply X.
      * exfalso. apply (O w); [left; reflexivity|]. apply gives_r. eauto.
  - destruct (IH r) as (l & r' & E & F & N1 & N2). rewrite E. exists (w :: l), r'. split; auto.
    assert (SK : forall s, read_restarts s w = s) by (intros s; unfold read_restarts; rewrite E2; reflexivity).
    assert (NG : ~ gives "MAKE_RESTARTS" w) by (intros G; apply gives_r in G; destruct G as (v & G); exact (proj1 (behind_none _ _) E2 v G)).
    split; [|split].
    + constructor; auto. right. right. split; auto. intros [G|G]; [exact (NG G)|]. apply gives_l in G. destruct G as (v & G). exact (proj1 (behind_none _ _) E1 v G).
    + intros H. destruct N1 as (-> & G); [intros x I; apply H; right; exact I|]. split; [reflexivity|]. intros s. cbn [fold_left]. rewrite SK. apply G.
    + intros a x b Q G O B. destruct a as [| y a]; cbn [app] in Q; injection Q as <- ->; [destruct (NG G)|].
      destruct (N2 a x b eq_refl G) as (-> & X); [intros z I; apply O; right; exact I|exact B|]. split; [reflexivity|]. intros s. cbn [fold_left]. rewrite SK. apply X.
Qed.

(** The word MAKE_RESTARTS comes at most once. *)
Definition once (env : list str) : Prop := forall a w b, env = a ++ w :: b -> gives "MAKE_RESTARTS" w -> forall x, In x (a ++ b) -> ~ gives "MAKE_RESTARTS" x.
(** The next make counts one more, and knows whether the directory was announced already. *)
Theorem C68_restarts : forall level traced r env, once env -> (0 <= r < 2 ^ 32 - 1)%Z -> restarts_of (next_env level traced r env) = ((r + 1)%Z, traced).
Proof.
  intros level traced r env O B. unfold next_env. replace (unsigned (r + 1)) with (r + 1)%Z by (symmetry; apply Z.mod_small; lia).
  destruct (patch_spec level traced env (r + 1)%Z) as (l & r' & -> & _ & N1 & N2). unfold restarts_of.
  assert (D : (forall w, In w env -> ~ gives "MAKE_RESTARTS" w) \/ exists a w b, env = a ++ w :: b /\ gives "MAKE_RESTARTS" w).
  { clear. induction env as [| w env IH]; [left; intros w []|]. destruct (behind k_restarts w) as [v|] eqn:E.
    - right. apply behind_some in E. exists [], w, env. split; auto. apply gives_r. eauto.
    - destruct IH as [N | (a & x & b & -> & G)]; [left|right; exists (w :: a), x, b; auto]. intros x [<-|I]; auto. intros G. apply gives_r in G. destruct G as (v & G). exact (proj1 (behind_none _ _) E v G). }
  destruct D as [N | (a & w & b & E & G)].
  - destruct (N1 N) as (-> & X). destruct (Z.eqb_spec (r + 1) 0); [lia|]. rewrite fold_left_app, X. cbn [fold_left]. rewrite read_word by lia. rewrite orb_false_r. reflexivity.
  - destruct (N2 a w b E G (O a w b E G)) as (-> & X); [lia|]. change (0 =? 0)%Z with true. cbn iota. rewrite X, orb_false_r. reflexivity.
Qed.
(** Nothing else of the environment changes but MAKELEVEL, which is this make's. *)
Theorem C68_environment : forall level traced r env, exists l e, next_env level traced r env = l ++ e /\
  Forall2 (fun w w' => (gives "MAKELEVEL" w /\ w' = s2l "MAKELEVEL=" ++ show_lu level) \/ (gives "MAKE_RESTARTS" w /\ gives "MAKE_RESTARTS" w') \/ (~ mentions w /\ w' = w)) env l /\
  (forall w, In w e -> gives "MAKE_RESTARTS" w).
Proof.
  intros level traced r env. unfold next_env. destruct (patch_spec level traced env (unsigned (r + 1))) as (l & r' & -> & F & _). exists l. destruct (r' =? 0)%Z.
  - exists []. rewrite app_nil_r. split; auto. split; [exact F|]. intros w [].
  - eexists. split; [reflexivity|]. split; [exact F|]. intros w [<-|[]]. apply gives_r. unfold restarts_word. eauto.
Qed.
Theorem C68_level : forall z, (0 <= z < 2 ^ 32)%Z -> unsigned (atoi (show_lu z)) = z.
Proof. exact show_atoi. Qed.
(** If the word comes twice then the next make does not count. *)
Theorem C68_twice_refuted : exists env, restarts_of env = (1%Z, false) /\ restarts_of (next_env 0 false 1 env) = (0%Z, false).
Proof. exists (map s2l ["MAKE_RESTARTS=1"; "MAKE_RESTARTS=1"]%string). split; vm_compute; reflexivity. Qed.

Print Assumptions C68_restarts.
Print Assumptions C68_environment.
Print Assumptions C68_level.
Print Assumptions C68_twice_refuted.

Example ex68_env : next_env 2 true 9 (map s2l ["A=b"; "MAKE_RESTARTS=9"; "MAKELEVEL=7"; "MAKELEVELS=7"]%string) = map s2l ["A=b"; "MAKE_RESTARTS=-10"; "MAKELEVEL=2"; "MAKELEVELS=7"]%string.
Proof. vm_compute. reflexivity. Qed.
Example ex68_env0 : next_env 0 false 0 (map s2l ["A=b"]%string) = map s2l ["A=b"; "MAKE_RESTARTS=1"]%string /\ once (map s2l ["A=b"]%string).
Proof. split; [vm_compute; reflexivity|]. intros a w b E (v & ->) x I. destruct a as [| y a]; [discriminate E|]. destruct a; discriminate E. Qed.
