(** C69: files whose names turn out to be the same. *)
From Coq Require Import Lia String List.
From Verif Require Import Base M_Rename S_Rename P_Rename.
Open Scope string_scope.
Open Scope list_scope.
Open Scope nat_scope.

(** What is at the addresses after a step, if the file is in the table. *)
Lemma step_cases n s i to s' w : sound s -> known s i -> f_hname (heap s i) <> to -> rehash_file n s i to = Done s' w ->
  exists es, entries n (put (heap s) i (not_builtin (heap s i))) (f_colon (heap s i)) = Some es /\
    let h1 := hn (i :: es) to (put (heap s) i (not_builtin (heap s i))) in
    match table s to with
    | None => s' = mkstate h1 (put_name (put_name (table s) (f_hname (heap s i)) None) to (Some i)) /\ w = None
    | Some k => k <> i /\ clash (h1 k) (h1 i) = false /\ s' = mkstate (put (put h1 k (merged (h1 k) (h1 i))) i (with_renamed (h1 i) k)) (put_name (table s) (f_hname (heap s i)) None) /\ w = warning (h1 k) (h1 i) to
    end.
Proof.
  intros S K N H. pose proof (rehash_known n s i to S K N) as X. rewrite H in X. destruct X as (es & h1 & E & EH & X). exists es. split; [exact E|]. cbn zeta. rewrite <- EH. clear EH. destruct (table s to) as [k|].
  - destruct X as [KI X]. destruct (clash _ _); [discriminate|]. injection X as -> ->. auto.
  - injection X as -> ->. auto.
Qed.
Section Step.
  Variable (n : nat) (s : state) (i : nat) (to : str).
  Hypothesis S : sound s.
  Hypothesis K : known s i.
  Hypothesis N : f_hname (heap s i) <> to.
  Let h0 := put (heap s) i (not_builtin (heap s i)).
  Lemma prev0 x : f_prev (h0 x) = f_prev (heap s x).
  Proof. unfold h0. destruct (Nat.eq_dec x i) as [->|X]; [rewrite put_same|rewrite put_other by exact X]; reflexivity. Qed.
  Lemma in_entries es e : entries n h0 (f_colon (heap s i)) = Some es -> (In e es <-> entry_of (heap s) i e).
  Proof.
    intros E. rewrite (entries_later _ _ _ _ e E). unfold entry_of. split; intros (d & D & L); exists d; split; auto; eapply later_ext; try exact L; intros x; rewrite prev0; reflexivity.
  Qed.
  Lemma entry_out es k m : entries n h0 (f_colon (heap s i)) = Some es -> table s m = Some k -> k <> i -> ~ In k (i :: es).
  Proof.
    intros E T KI [X|X]; [congruence|]. apply (in_entries _ _ E) in X. destruct X as (d & D & L). destruct (proj2 S _ _ _ _ K D L) as [X|X]; [congruence|]. exact (X m T).
  Qed.
  Lemma h1_cases es x : entries n h0 (f_colon (heap s i)) = Some es -> hn (i :: es) to h0 x = if in_dec Nat.eq_dec x (i :: es) then with_hname (h0 x) to else heap s x.
  Proof.
    intros E. destruct (in_dec Nat.eq_dec x (i :: es)) as [I|I]; [apply hn_in; exact I|]. rewrite hn_out by exact I. unfold h0. apply put_other. intros ->. apply I. left. reflexivity.
  Qed.
  Lemma h1_keeps es x : entries n h0 (f_colon (heap s i)) = Some es -> f_prev (hn (i :: es) to h0 x) = f_prev (heap s x) /\ f_colon (hn (i :: es) to h0 x) = f_colon (heap s x) /\ f_renamed (hn (i :: es) to h0 x) = f_renamed (heap s x).
  Proof.
    intros E. rewrite (h1_cases es x E). destruct (in_dec _ _ _); auto. cbn [with_hname f_prev f_colon f_renamed]. unfold h0. destruct (Nat.eq_dec x i) as [->|X]; [rewrite put_same|rewrite put_other by exact X]; auto.
  Qed.
End Step.
Definition target_of (s : state) (i : nat) (to : str) : nat := match table s to with Some k => k | None => i end.

(** Afterwards the new name is that of one file, the old name of none, other names are as they were; whoever had one of the two files, or any other, gets to the right one;
    and the table is sound again. *)
Theorem C69_lookup : forall n s i to s' w, sound s -> known s i -> f_hname (heap s i) <> to -> rehash_file n s i to = Done s' w ->
  let k := target_of s i to in
  table s' to = Some k /\ table s' (f_hname (heap s i)) = None /\ (forall m, m <> to -> m <> f_hname (heap s i) -> table s' m = table s m) /\
  (forall x y, resolves (heap s) x y -> resolves (heap s') x (if y =? i then k else y)) /\ sound s'.
Proof.
  intros n s i to s' w S K N H. destruct (step_cases _ _ _ _ _ _ S K N H) as (es & E & X). cbn zeta in *. unfold target_of. pose proof S as [S1 S2].
  pose proof (fun x => h1_keeps n s i to es x E) as KP. pose proof (fun x => h1_cases n s i to es x E) as HC. destruct (S1 _ _ K) as [_ RI].
  set (h1 := hn (i :: es) to _) in *. destruct (table s to) as [k|] eqn:T.
  - destruct X as (KI & C & -> & _). cbn [heap table]. destruct (S1 _ _ T) as [KN KR].
    set (h2 := put (put h1 k (merged (h1 k) (h1 i))) i (with_renamed (h1 i) k)).
    assert (HI : h2 i = with_renamed (h1 i) k) by apply put_same. assert (HK : h2 k = merged (h1 k) (h1 i)) by (unfold h2; rewrite put_other by exact KI; apply put_same).
    assert (HO : forall x, x <> i -> x <> k -> h2 x = h1 x) by (intros x X1 X2; unfold h2; rewrite !put_other by assumption; reflexivity).
    assert (REN : forall x, x <> i -> f_renamed (h2 x) = f_renamed (heap s x)). { intros x X. destruct (Nat.eq_dec x k) as [->|X']; [rewrite HK; cbn [merged f_renamed]|rewrite HO by assumption]; apply KP. }
    assert (PRE : forall x, f_prev (h2 x) = f_prev (heap s x)). { intros x. destruct (Nat.eq_dec x i) as [->|X]; [rewrite HI; apply KP|]. destruct (Nat.eq_dec x k) as [->|X']; [rewrite HK; cbn [merged f_prev]|rewrite HO by assumption]; apply KP. }
    assert (KK : resolves h2 k k) by (apply rs_here; rewrite REN; auto).
    split; [rewrite name_other by congruence; exact T|]. split; [apply name_same|]. split; [intros m M1 M2; apply name_other; exact M2|]. split.
    + intros x y R. induction R as [x R | x y z R A IH].
      * destruct (Nat.eqb_spec x i) as [->|X]; [|apply rs_here; rewrite REN; auto]. apply rs_next with (y := k); [rewrite HI; reflexivity|exact KK].
      * assert (XI : x <> i) by congruence. eapply rs_next; [rewrite REN by exact XI; exact R|exact IH].
    + assert (OLD : forall m j, put_name (table s) (f_hname (heap s i)) None m = Some j -> table s m = Some j /\ j <> i).
      { intros m j M. destruct (str_eqb m (f_hname (heap s i))) eqn:Q; [apply str_eqb_eq in Q; subst m; rewrite name_same in M; discriminate|]. rewrite name_other in M by (intros ->; rewrite str_eqb_refl in Q; discriminate). split; auto. intros ->. destruct (S1 _ _ M) as [X _]. rewrite <- X, str_eqb_refl in Q. discriminate. }
      assert (FREE : forall m, put_name (table s) (f_hname (heap s i)) None m <> Some i) by (intros m M; apply OLD in M; destruct M; congruence).
      assert (OUT : forall e, (forall m, table s m <> Some e) -> forall m, put_name (table s) (f_hname (heap s i)) None m <> Some e) by (intros e O m M; apply OLD in M; destruct M as [M _]; exact (O m M)).
      split; cbn [heap table]; fold h2.
      * intros m j M. apply OLD in M. destruct M as [M J]. destruct (S1 _ _ M) as [M1 M2]. rewrite REN by exact J. split; [|exact M2]. destruct (Nat.eq_dec j k) as [->|JK].
        { rewrite HK. cbn [merged f_hname]. rewrite HC. destruct (in_dec _ _ _) as [X|_]; [|exact M1]. destruct (entry_out n s i S K es k to E T KI X). }
        { rewrite HO by assumption. rewrite HC. destruct (in_dec _ _ _) as [X|_]; [|exact M1]. destruct (entry_out n s i S K es j m E M J X). }
      * intros m j d e M D L. apply OLD in M. destruct M as [M J]. assert (L' : later (heap s) d e) by (eapply later_ext; [|exact L]; intros x; rewrite PRE; reflexivity).
        assert (CJ : f_colon (heap s j) = Some d \/ (j = k /\ f_colon (heap s i) = Some d)).
        { destruct (Nat.eq_dec j k) as [->|JK]; [|left; rewrite <- D, HO by assumption; symmetry; apply KP]. rewrite HK in D. cbn [merged f_colon] in D. rewrite !(proj1 (proj2 (KP _))) in D. destruct (f_colon (heap s k)); auto. }
        destruct CJ as [CJ | (-> & CJ)].
        { destruct (S2 _ _ _ _ M CJ L') as [X|X]; auto. }
        { destruct (S2 _ _ _ _ K CJ L') as [->|X]; auto. }
  - destruct X as (-> & _). cbn [heap table]. split; [apply name_same|]. split; [rewrite name_other by exact N; apply name_same|]. split; [intros m M1 M2; rewrite !name_other by assumption; reflexivity|]. split.
    + intros x y R. replace (if y =? i then i else y) with y by (destruct (Nat.eqb_spec y i); congruence). induction R as [x R | x y z R A IH]; [apply rs_here; rewrite (proj2 (proj2 (KP x))); exact R|]. eapply rs_next; [rewrite (proj2 (proj2 (KP x))); exact R|exact IH].
    + assert (OLD : forall m j, put_name (put_name (table s) (f_hname (heap s i)) None) to (Some i) m = Some j -> (m = to /\ j = i) \/ (table s m = Some j /\ j <> i)).
      { intros m j M. destruct (str_eqb m to) eqn:Q; [apply str_eqb_eq in Q; subst m; rewrite name_same in M; left; split; congruence|]. rewrite name_other in M by (intros ->; rewrite str_eqb_refl in Q; discriminate). right.
        destruct (str_eqb m (f_hname (heap s i))) eqn:Q'; [apply str_eqb_eq in Q'; subst m; rewrite name_same in M; discriminate|]. rewrite name_other in M by (intros ->; rewrite str_eqb_refl in Q'; discriminate). split; auto. intros ->. destruct (S1 _ _ M) as [X _]. rewrite <- X, str_eqb_refl in Q'. discriminate. }
      assert (OUT : forall e, e <> i -> (forall m, table s m <> Some e) -> forall m, put_name (put_name (table s) (f_hname (heap s i)) None) to (Some i) m <> Some e) by (intros e EI O m M; apply OLD in M; destruct M as [[_ M] | [M _]]; [congruence|exact (O m M)]).
      split; cbn [heap table].
      * intros m j M. apply OLD in M. rewrite (proj2 (proj2 (KP j))). destruct M as [[-> ->] | [M J]].
        { split; [|exact RI]. rewrite HC. destruct (in_dec _ _ _) as [_|X]; [reflexivity|]. destruct X. left. reflexivity. }
        { destruct (S1 _ _ M) as [M1 M2]. split; [|exact M2]. rewrite HC. destruct (in_dec _ _ _) as [X|_]; [|exact M1]. destruct (entry_out n s i S K es j m E M J X). }
      * intros m j d e M D L. assert (L' : later (heap s) d e) by (eapply later_ext; [|exact L]; intros x; rewrite (proj1 (KP x)); reflexivity). rewrite (proj1 (proj2 (KP j))) in D. apply OLD in M. destruct M as [[-> ->] | [M J]].
        { destruct (S2 _ _ _ _ K D L') as [X|X]; [left; exact X|]. destruct (Nat.eq_dec e i); auto. }
        { destruct (S2 _ _ _ _ M D L') as [X|X]; [left; exact X|]. destruct (Nat.eq_dec e i) as [->|EI]; [|auto]. destruct (X _ K). }
Qed.
(** make does not abort. *)
Theorem C69_safe : forall n s i to, sound s -> known s i -> rehash_file n s i to <> Abort.
Proof.
  intros n s i to S K H. destruct (str_eqb (f_hname (heap s i)) to) eqn:E.
  - unfold rehash_file in H. rewrite put_same in H. cbn [f_hname not_builtin] in H. rewrite E in H. discriminate.
  - assert (N : f_hname (heap s i) <> to) by (intros X; rewrite X, str_eqb_refl in E; discriminate). pose proof (rehash_known n s i to S K N) as X. rewrite H in X. exact X.
Qed.
(** The variables: of a name in both lists of sets, the one in the inner set is taken, the file's own if both are at the same depth. *)
Theorem C69_variables : forall a b v, (forall p q l, b = q :: l -> In p a -> fst p <> fst q) ->
  value (merge_lists a b) v = match level a v, level b v with
                              | Some (i, x), Some (j, y) => Some (if i <=? j then x else y)
                              | Some (_, x), None => Some x
                              | None, Some (_, y) => Some y
                              | None, None => None
                              end.
Proof.
  intros a b v D. unfold value, merge_lists. destruct b as [| [j y] b]; [cbn [level]; destruct (level a v) as [[]|]; reflexivity|].
  destruct (existsb (fun p => fst p =? j) a) eqn:E.
  - apply existsb_exists in E. destruct E as (p & I & Q). apply Nat.eqb_eq in Q. destruct (D p (j, y) b eq_refl I Q).
  - rewrite merge_levels_level. destruct (level a v) as [[i x]|], (level ((j, y) :: b) v) as [[k z]|]; cbn [first_of option_map snd]; try reflexivity. destruct (i <=? k); reflexivity.
Qed.
(** The file that stays has the prerequisites of both, first its own; its own recipe, or else the other's; the later of the times; the flags of either. *)
Theorem C69_merge : forall n s i to s' w k, sound s -> known s i -> f_hname (heap s i) <> to -> rehash_file n s i to = Done s' w -> table s to = Some k ->
  let a := heap s k in let b := heap s i in let c := heap s' k in
  f_deps c = f_deps a ++ f_deps b /\ f_cmds c = match f_cmds a with Some r => Some r | None => f_cmds b end /\ f_hname c = to /\ f_name c = f_name a /\
  (forall v, (forall p q l, f_vars b = q :: l -> In p (f_vars a) -> fst p <> fst q) ->
     value (f_vars c) v = match level (f_vars a) v, level (f_vars b) v with
                          | Some (i, x), Some (j, y) => Some (if i <=? j then x else y)
                          | Some (_, x), None => Some x
                          | None, Some (_, y) => Some y
                          | None, None => None
                          end) /\
  f_mtime a <= f_mtime c /\ f_mtime b <= f_mtime c /\ (f_mtime c = f_mtime a \/ f_mtime c = f_mtime b) /\ f_before c = f_before b /\ f_others c = f_others a /\
  (forall p, In p [w_precious; w_tried; w_updating; w_updated; w_target; w_cmd_target; w_phony; w_loaded; w_ignore] -> p (f_flags c) = p (f_flags a) || p (f_flags b)).
Proof.
  intros n s i to s' w k S K N H T. destruct (step_cases _ _ _ _ _ _ S K N H) as (es & E & X). cbn zeta in *. rewrite T in X. destruct X as (KI & C & -> & _). cbn [heap].
  pose proof (fun x => h1_cases n s i to es x E) as HC. pose proof (entry_out n s i S K es k to E T KI) as OUT. set (h1 := hn (i :: es) to _) in *.
  rewrite put_other by exact KI. rewrite put_same. assert (HK : h1 k = heap s k) by (rewrite HC; destruct (in_dec _ _ _) as [X|_]; [destruct (OUT X)|reflexivity]).
  assert (HI : h1 i = with_hname (not_builtin (heap s i)) to) by (rewrite HC; destruct (in_dec _ _ _) as [_|X]; [rewrite put_same; reflexivity|destruct X; left; reflexivity]).
  rewrite HK, HI. destruct (proj1 S _ _ T) as [KN _]. cbn [merged with_hname not_builtin f_hname f_name f_cmds f_deps f_vars f_mtime f_before f_flags f_others].
  split; [reflexivity|]. split; [reflexivity|]. split; [exact KN|]. split; [reflexivity|]. split.
  { intros v B. apply C69_variables. exact B. }
  split; [lia|]. split; [lia|]. split; [lia|]. split; [reflexivity|]. split; [reflexivity|]. intros p P. cbn [In] in P. repeat (destruct P as [<- | P]; [reflexivity|]). destruct P.
Qed.
(** Nothing but names of entries changes in other files. *)
Theorem C69_frame : forall n s i to s' w j, sound s -> known s i -> f_hname (heap s i) <> to -> rehash_file n s i to = Done s' w -> j <> i -> table s to <> Some j ->
  (entry_of (heap s) i j -> heap s' j = with_hname (heap s j) to) /\ (~ entry_of (heap s) i j -> heap s' j = heap s j).
Proof.
  intros n s i to s' w j S K N H JI JT. destruct (step_cases _ _ _ _ _ _ S K N H) as (es & E & X). cbn zeta in *. pose proof (h1_cases n s i to es j E) as HC. pose proof (in_entries n s i es j E) as IE. set (h1 := hn (i :: es) to _) in *.
  assert (HJ : heap s' j = h1 j). { destruct (table s to) as [k|]; [destruct X as (_ & _ & -> & _); cbn [heap]; rewrite !put_other by congruence; reflexivity|destruct X as (-> & _); reflexivity]. }
  rewrite HJ, HC. destruct (in_dec Nat.eq_dec j (i :: es)) as [[I|I]|I]; [congruence| |].
  - rewrite put_other by exact JI. split; [reflexivity|]. intros O. destruct (O (proj1 IE I)).
  - split; [|reflexivity]. intros O. destruct I. right. apply IE. exact O.
Qed.
(** make stops if one of the two has single-colon rules and the other double-colon rules; not if the file that is found has none at all. *)
Theorem C69_fatal : forall n s i to, sound s -> known s i -> f_hname (heap s i) <> to -> rehash_file n s i to <> Endless ->
  (rehash_file n s i to = Fatal <-> exists k, table s to = Some k /\
     ((f_colon (heap s k) <> None /\ w_target (f_flags (heap s i)) = true /\ f_colon (heap s i) = None) \/ (f_colon (heap s k) = None /\ f_colon (heap s i) <> None /\ w_target (f_flags (heap s k)) = true))).
Proof.
  intros n s i to S K N NE. pose proof (rehash_known n s i to S K N) as X. destruct (rehash_file n s i to) as [s' w| | |] eqn:H; try congruence; [| |destruct X].
  all: destruct X as (es & h1 & E & -> & X); pose proof (fun x => h1_cases n s i to es x E) as HC; set (h1 := hn (i :: es) to _) in *;
    (destruct (table s to) as [k|] eqn:T; [|split; [intros Q; congruence|intros (k & Q & _); discriminate]]); destruct X as [KI X];
    assert (HK : h1 k = heap s k) by (rewrite HC; destruct (in_dec _ _ _) as [Y|_]; [destruct (entry_out n s i S K es k to E T KI Y)|reflexivity]);
    assert (HI : h1 i = with_hname (not_builtin (heap s i)) to) by (rewrite HC; destruct (in_dec _ _ _) as [_|Y]; [rewrite put_same; reflexivity|destruct Y; left; reflexivity]);
    rewrite HK, HI in X; unfold clash in X; cbn [with_hname not_builtin f_colon f_flags] in X.
  - split; [discriminate|]. intros (k' & Q & O). injection Q as <-. destruct O as [(A & B & C) | (A & B & C)]; rewrite ?A, ?B, ?C in X; destruct (f_colon (heap s k)), (f_colon (heap s i)); cbn in X; try congruence; rewrite ?B, ?C in X; discriminate.
  - split; [|reflexivity]. intros _. exists k. split; [reflexivity|]. destruct (f_colon (heap s k)), (f_colon (heap s i)), (w_target (f_flags (heap s i))), (w_target (f_flags (heap s k))); cbn in X; try discriminate; [left|left|right|right]; repeat split; congruence.
Qed.
(** A recipe that is lost is reported. *)
Theorem C69_warning : forall n s i to s' w k, sound s -> known s i -> f_hname (heap s i) <> to -> rehash_file n s i to = Done s' w -> table s to = Some k ->
  (w <> None <-> exists a b, f_cmds (heap s i) = Some a /\ f_cmds (heap s k) = Some b /\ a <> b).
Proof.
  intros n s i to s' w k S K N H T. destruct (step_cases _ _ _ _ _ _ S K N H) as (es & E & X). cbn zeta in *. rewrite T in X. destruct X as (KI & _ & _ & ->).
  pose proof (fun x => h1_cases n s i to es x E) as HC. set (h1 := hn (i :: es) to _) in *.
  assert (HK : h1 k = heap s k) by (rewrite HC; destruct (in_dec _ _ _) as [Y|_]; [destruct (entry_out n s i S K es k to E T KI Y)|reflexivity]).
  assert (HI : h1 i = with_hname (not_builtin (heap s i)) to) by (rewrite HC; destruct (in_dec _ _ _) as [_|Y]; [rewrite put_same; reflexivity|destruct Y; left; reflexivity]).
  rewrite HK, HI. unfold warning. cbn [with_hname not_builtin f_cmds f_name]. destruct (f_cmds (heap s i)) as [a|], (f_cmds (heap s k)) as [b|]; try (split; [congruence|intros (x & y & A & B & _); discriminate]).
  destruct (Nat.eqb_spec a b); split; try congruence; [intros (x & y & A & B & C); congruence|]. intros _. exists a, b. auto.
Qed.
(** rename_file: the name is changed as well, in all entries from the file on. *)
Theorem C69_rename : forall n s i to s' w e, rename_file n s i to = Done s' w -> exists s1, rehash_file n s i to = Done s1 w /\ table s' = table s1 /\
  (later (heap s1) i e -> heap s' e = with_name (heap s1 e) (f_hname (heap s1 e))) /\ (~ later (heap s1) i e -> heap s' e = heap s1 e).
Proof.
  intros n s i to s' w e H. unfold rename_file in H. destruct (rehash_file n s i to) as [s1 w1| | |]; try discriminate. destruct (entries n (heap s1) (Some i)) as [es|] eqn:E; [|discriminate]. injection H as <- <-. exists s1. cbn [heap table]. split; [reflexivity|]. split; [reflexivity|].
  pose proof (entries_later _ _ _ _ e E) as L. assert (IN : In e es <-> later (heap s1) i e) by (rewrite L; split; [intros (d & D & X); injection D as <-; exact X|eauto]). clear L E.
  assert (O : forall l h, ~ In e l -> fold_left (fun h e => put h e (with_name (h e) (f_hname (h e)))) l h e = h e).
  { induction l as [| b l IHl]; intros h N; [reflexivity|]. cbn [fold_left]. rewrite IHl by (intros X; apply N; right; exact X). apply put_other. intros ->. apply N. left. reflexivity. }
  assert (A : forall l h, In e l -> fold_left (fun h e => put h e (with_name (h e) (f_hname (h e)))) l h e = with_name (h e) (f_hname (h e))).
  { induction l as [| b l IHl]; intros h I; [destruct I|]. cbn [fold_left]. destruct (in_dec Nat.eq_dec e l) as [J|J].
    - rewrite IHl by exact J. destruct (Nat.eq_dec e b) as [->|X]; [rewrite put_same; reflexivity|rewrite put_other by exact X; reflexivity].
    - rewrite O by exact J. destruct I as [->|I]; [|destruct (J I)]. apply put_same. }
  split; intros X; [apply A, IN, X|apply O; intros I; apply X, IN, I].
Qed.
(** No variable of the file that stays has been freed, if no set is in both lists. *)
Theorem C69_freed : forall a b j v, (forall p q, In p a -> In q b -> fst p <> fst q) -> NoDup (map fst b) -> In (j, v) (freed a b) -> ~ In j (map fst (merge_lists a b)).
Proof.
  intros a b j v D N F. unfold freed, merge_lists in *. destruct b as [| [k y] b]; [destruct F|]. destruct (existsb (fun p => fst p =? k) a) eqn:E; [destruct F|]. clear E. revert F D N. generalize ((k, y) :: b). clear. induction a as [| [i x] a IH]; intros b F D N; [destruct F|].
  destruct b as [| [k y] b]; [destruct F|]. cbn [freed_levels merge_levels map fst] in *. apply NoDup_cons_iff in N. destruct N as [N1 N2].
  assert (G : forall l m q, In q (map fst (merge_levels l m)) -> In q (map fst l) \/ In q (map fst m)).
  { induction l as [| [u w] l IHl]; intros m q Q; [right; exact Q|]. destruct m as [| [u' w'] m]; [left; exact Q|]. cbn [merge_levels map fst In] in *. destruct Q as [Q|Q]; [auto|]. destruct (IHl _ _ Q); auto. }
  apply in_app_or in F. destruct F as [F|F].
  - apply in_map_iff in F. destruct F as (p & P & _). injection P as <- _. intros [X|X].
    + apply (D (i, x) (k, y)); [left; reflexivity|left; reflexivity|exact X].
    + apply G in X. destruct X as [X|X]; [|destruct (N1 X)]. apply in_map_iff in X. destruct X as (p' & P' & I). apply (D p' (k, y)); [right; exact I|left; reflexivity|exact P'].
  - intros [X|X]; [|apply (IH b F); [intros p q I J; apply D; right; assumption|exact N2|exact X]].
    assert (J : In j (map fst b)). { revert F. clear. revert b. induction a as [| [u w] a IHa]; intros b F; [destruct F|]. destruct b as [| [k y] b]; [destruct F|]. cbn [freed_levels] in F. apply in_app_or in F. destruct F as [F|F]; [apply in_map_iff in F; destruct F as (p & P & _); injection P as <- _; left; reflexivity|right; exact (IHa _ F)]. }
    apply in_map_iff in J. destruct J as (q & Q & J). apply (D (i, x) q); [left; reflexivity|right; exact J|]. cbn [fst]. congruence.
Qed.

(** What is freed are the variables whose names the set at the same depth has. *)
Lemma value_has s v : has s v = true <-> value_in s v <> None.
Proof.
  induction s as [| [m x] s IH]; cbn [has existsb value_in fst]; [split; congruence|]. fold (has s v). destruct (str_eqb m v); cbn [orb]; [split; congruence|exact IH].
Qed.
Theorem C69_freed_exact : forall a b j v, (forall p q l, b = q :: l -> In p a -> fst p <> fst q) ->
  (In (j, v) (freed a b) <-> exists k i x y, nth_error a k = Some (i, x) /\ nth_error b k = Some (j, y) /\ value_in x v <> None /\ value_in y v <> None).
Proof.
  intros a b j v D. assert (F : freed a b = freed_levels a b).
  { unfold freed. destruct b as [| [q y] b]; [destruct a as [| []]; reflexivity|]. destruct (existsb (fun p => fst p =? q) a) eqn:E; [|reflexivity]. apply existsb_exists in E. destruct E as (p & I & Q). apply Nat.eqb_eq in Q. destruct (D p (q, y) b eq_refl I Q). }
  rewrite F. clear F D. revert b. induction a as [| [i x] a IH]; intros b; [split; [intros []|intros ([|k] & i & x & y & A & _); discriminate]|]. destruct b as [| [q y] b]; [split; [intros []|intros ([|k] & i' & x' & y' & _ & A & _); discriminate]|].
  cbn [freed_levels]. rewrite in_app_iff, IH, in_map_iff. split.
  - intros [(p & P & I) | (k & i' & x' & y' & A)]; [|exists (Datatypes.S k), i', x', y'; exact A]. injection P as <- <-. apply filter_In in I. destruct I as [I H]. exists 0, i, x, y. cbn [nth_error]. split; [reflexivity|]. split; [reflexivity|]. split; [apply value_has; exact H|]. apply value_has. apply existsb_exists. exists p. split; [exact I|apply str_eqb_refl].
  - intros ([|k] & i' & x' & y' & A & B & X & Y); cbn [nth_error] in A, B; [left|right; exists k, i', x', y'; auto]. injection A as <- <-. injection B as <- <-. apply value_has in X. apply value_has in Y. apply existsb_exists in Y. destruct Y as (p & I & E). apply str_eqb_eq in E. exists p. rewrite E. split; [reflexivity|]. apply filter_In. rewrite E. auto.
Qed.
(** If the other list is a part of the file's, nothing changes and nothing is freed. *)
Theorem C69_shared : forall l b, b <> [] -> merge_lists (l ++ b) b = l ++ b /\ freed (l ++ b) b = [].
Proof.
  intros l [| [q y] b] N; [congruence|]. unfold merge_lists, freed. assert (E : existsb (fun p => fst p =? q) (l ++ (q, y) :: b) = true).
  { apply existsb_exists. exists (q, y). split; [apply in_or_app; right; left; reflexivity|apply Nat.eqb_refl]. }
  rewrite E. auto.
Qed.

(** ** What does not hold. *)
Definition no_flags := mkflags false false false false false false false false false.
Definition no_others := mkothers 0 false false false 0.
Definition plain (n : str) : file := mkfile n n None [] [] None None None 0 0 false no_flags no_others.
Definition table_of (l : list (str * nat)) : str -> option nat := fun n => match find (fun p => str_eqb (fst p) n) l with Some p => Some (snd p) | None => None end.
Definition heap_of (l : list file) : nat -> file := fun i => nth i l (plain []).
(** Both lists of sets may end with that of one parent; then its variables are freed though they are in use. *)
Theorem C69_freed_refuted : exists a b j v, NoDup (map fst b) /\ NoDup (map fst a) /\ In (j, v) (freed a b) /\ exists i, nth_error (merge_lists a b) i = Some (j, [(v, s2l "x")]).
Proof.
  exists [(0, []); (1, [(s2l "V", s2l "x")])], [(2, []); (1, [(s2l "V", s2l "x")])], 1, (s2l "V"). repeat split; try (repeat (constructor; [cbn; intuition discriminate|]); constructor); [cbn; auto|]. exists 1. reflexivity.
Qed.
(** The message says of which recipe it is that it is not used, but it is the other way round (src/file.c:130-132). *)
Theorem C69_message_refuted : exists s s' w, sound s /\ known s 0 /\ rehash_file 5 s 0 (s2l "src/x") = Done s' (Some w) /\
  f_name (heap s 1) = fst w /\ f_name (heap s 0) = snd w /\ f_cmds (heap s 0) = Some 8 /\ f_cmds (heap s 1) = Some 9 /\ f_cmds (heap s' 1) = Some 9.
Proof.
  set (a := mkfile (s2l "x") (s2l "x") (Some 8) [] [] None None None 0 0 false no_flags no_others). set (b := mkfile (s2l "src/x") (s2l "src/x") (Some 9) [] [] None None None 0 0 false no_flags no_others).
  exists (mkstate (heap_of [a; b]) (table_of [(s2l "x", 0); (s2l "src/x", 1)])). eexists. eexists. split.
  { split; cbn [heap table]; intros n i; unfold table_of; cbn [find fst snd]; (destruct (str_eqb (s2l "x") n) eqn:E1; [|destruct (str_eqb (s2l "src/x") n) eqn:E2; [|discriminate]]).
    - intros Q. injection Q as <-. split; [apply str_eqb_eq; exact E1|reflexivity].
    - intros Q. injection Q as <-. split; [apply str_eqb_eq; exact E2|reflexivity].
    - intros d e Q. injection Q as <-. discriminate.
    - intros d e Q. injection Q as <-. discriminate. }
  split; [reflexivity|]. split; [reflexivity|]. repeat split; reflexivity.
Qed.
(** Whoever has a file that was merged with one that has got a third name makes make abort: rehash_file compares the name of the last one with that of the first (src/file.c:70-75). *)
Theorem C69_abort_refuted : exists s s1 s2 w1 w2, sound s /\ known s 0 /\ known s 1 /\
  rehash_file 5 s 0 (s2l "b") = Done s1 w1 /\ rehash_file 5 s1 1 (s2l "c") = Done s2 w2 /\ rehash_file 5 s2 0 (s2l "c") = Abort /\ resolves (heap s2) 0 1 /\ table s2 (s2l "c") = Some 1.
Proof.
  exists (mkstate (heap_of [plain (s2l "a"); plain (s2l "b")]) (table_of [(s2l "a", 0); (s2l "b", 1)])). eexists. eexists. eexists. eexists. split.
  { split; cbn [heap table]; intros n i; unfold table_of; cbn [find fst snd]; (destruct (str_eqb (s2l "a") n) eqn:E1; [|destruct (str_eqb (s2l "b") n) eqn:E2; [|discriminate]]).
    - intros Q. injection Q as <-. split; [apply str_eqb_eq; exact E1|reflexivity].
    - intros Q. injection Q as <-. split; [apply str_eqb_eq; exact E2|reflexivity].
    - intros d e Q. injection Q as <-. discriminate.
    - intros d e Q. injection Q as <-. discriminate. }
  split; [reflexivity|]. split; [reflexivity|]. split; [reflexivity|]. split; [reflexivity|]. split; [reflexivity|]. split; [|reflexivity].
  apply rs_next with (y := 1); [reflexivity|]. apply rs_here. reflexivity.
Qed.
(** A breakpoint on the file that is merged is lost, as are the marks of .SECONDARY and of "don't care" and the status that goes with "updated". *)
Theorem C69_breakpoint_refuted : exists s s' w, sound s /\ known s 0 /\ rehash_file 5 s 0 (s2l "src/x") = Done s' w /\ table s' (s2l "src/x") = Some 1 /\
  f_others (heap s 0) = mkothers 2 false true true 3 /\ w_updated (f_flags (heap s 0)) = true /\
  w_tracing (f_others (heap s' 1)) = 0 /\ w_secondary (f_others (heap s' 1)) = false /\ w_dontcare (f_others (heap s' 1)) = false /\ w_updated (f_flags (heap s' 1)) = true /\ w_status (f_others (heap s' 1)) = 0.
Proof.
  set (a := mkfile (s2l "x") (s2l "x") (Some 8) [] [] None None None 0 0 false (mkflags false false false true true false false false false) (mkothers 2 false true true 3)).
  exists (mkstate (heap_of [a; plain (s2l "src/x")]) (table_of [(s2l "x", 0); (s2l "src/x", 1)])). eexists. eexists. split.
  { split; cbn [heap table]; intros n i; unfold table_of; cbn [find fst snd]; (destruct (str_eqb (s2l "x") n) eqn:E1; [|destruct (str_eqb (s2l "src/x") n) eqn:E2; [|discriminate]]).
    - intros Q. injection Q as <-. split; [apply str_eqb_eq; exact E1|reflexivity].
    - intros Q. injection Q as <-. split; [apply str_eqb_eq; exact E2|reflexivity].
    - intros d e Q. injection Q as <-. discriminate.
    - intros d e Q. injection Q as <-. discriminate. }
  split; [reflexivity|]. split; [reflexivity|]. repeat split; reflexivity.
Qed.
(** A target with two double-colon rules, found under a name that some rule has as a prerequisite: update_file goes through the first entry only (src/remake.c:315, 334-353), since after
    [check_renamed] it goes on from the file that stays, which has no further entries. *)
Theorem C69_double_refuted : exists s s' w, sound s /\ known s 0 /\ update_rounds 9 (heap s) 0 = Some [0; 2] /\
  rehash_file 5 s 0 (s2l "src/x") = Done s' w /\ table s' (s2l "src/x") = Some 1 /\ f_colon (heap s' 1) = Some 0 /\ f_cmds (heap s' 2) = Some 7 /\ update_rounds 9 (heap s') 1 = Some [0].
Proof.
  set (a := mkfile (s2l "x") (s2l "x") (Some 8) [] [] (Some 0) (Some 2) None 0 0 false (mkflags false false false false true false false false false) no_others).
  set (c := mkfile (s2l "x") (s2l "x") (Some 7) [] [] (Some 0) None None 0 0 false (mkflags false false false false true false false false false) no_others).
  exists (mkstate (heap_of [a; plain (s2l "src/x"); c]) (table_of [(s2l "x", 0); (s2l "src/x", 1)])). eexists. eexists. split.
  { split; cbn [heap table]; intros n i; unfold table_of; cbn [find fst snd]; (destruct (str_eqb (s2l "x") n) eqn:E1; [|destruct (str_eqb (s2l "src/x") n) eqn:E2; [|discriminate]]).
    - intros Q. injection Q as <-. split; [apply str_eqb_eq; exact E1|reflexivity].
    - intros Q. injection Q as <-. split; [apply str_eqb_eq; exact E2|reflexivity].
    - intros d e Q. injection Q as <-. intros D L. injection D as <-. inversion L as [|? p ? P L']; subst; [left; reflexivity|]. injection P as <-. right. inversion L' as [|? p ? P ?]; subst; [|discriminate].
      intros m. destruct (str_eqb (s2l "x") m); [discriminate|]. destruct (str_eqb (s2l "src/x") m); discriminate.
    - intros d e Q. injection Q as <-. discriminate. }
  split; [reflexivity|]. split; [reflexivity|]. split; [reflexivity|]. repeat split; reflexivity.
Qed.

(** ** A case. *)

  Definition tgt := mkflags false false false false true false false false false.
  Definition a := mkfile (s2l "x") (s2l "x") (Some 8) [s2l "p"] [(1, [(s2l "V", s2l "1"); (s2l "W", s2l "2")])] None None None 7 3 true tgt no_others.
  Definition b := mkfile (s2l "src/x") (s2l "src/x") None [s2l "q"] [(0, [(s2l "V", s2l "0")])] None None None 5 2 false no_flags no_others.
  Definition s := mkstate (heap_of [a; b; plain (s2l "z")]) (table_of [(s2l "x", 0); (s2l "src/x", 1); (s2l "z", 2)]).
  Lemma sound_s : sound s.
  Proof.
    split; cbn [s heap table]; intros n i; unfold table_of; cbn [find fst snd]; (destruct (str_eqb (s2l "x") n) eqn:E1; [|destruct (str_eqb (s2l "src/x") n) eqn:E2; [|destruct (str_eqb (s2l "z") n) eqn:E3; [|discriminate]]]).
    - intros Q. injection Q as <-. split; [apply str_eqb_eq; exact E1|reflexivity].
    - intros Q. injection Q as <-. split; [apply str_eqb_eq; exact E2|reflexivity].
    - intros Q. injection Q as <-. split; [apply str_eqb_eq; exact E3|reflexivity].
    - intros d e Q. injection Q as <-. discriminate.
    - intros d e Q. injection Q as <-. discriminate.
    - intros d e Q. injection Q as <-. discriminate.
  Qed.
  (** The hypotheses of [C69_lookup], [C69_merge], [C69_warning] and [C69_frame]. *)
  Example merges : sound s /\ known s 0 /\ f_hname (heap s 0) <> s2l "src/x" /\ exists s', rehash_file 5 s 0 (s2l "src/x") = Done s' None /\
    f_deps (heap s' 1) = [s2l "q"; s2l "p"] /\ f_cmds (heap s' 1) = Some 8 /\ f_mtime (heap s' 1) = 7 /\ value (f_vars (heap s' 1)) (s2l "V") = Some (s2l "0") /\ value (f_vars (heap s' 1)) (s2l "W") = Some (s2l "2").
  Proof. split; [exact sound_s|]. split; [reflexivity|]. split; [discriminate|]. eexists. split; [reflexivity|]. repeat split; reflexivity. Qed.
  Example moves : f_hname (heap s 2) <> s2l "src/z" /\ known s 2 /\ exists s', rename_file 5 s 2 (s2l "src/z") = Done s' None /\ table s' (s2l "src/z") = Some 2 /\ f_name (heap s' 2) = s2l "src/z".
  Proof. split; [discriminate|]. split; [reflexivity|]. eexists. split; [reflexivity|]. split; reflexivity. Qed.
  (** [C69_fatal]. *)
  Definition d := mkfile (s2l "src/x") (s2l "src/x") None [] [] (Some 1) None None 5 2 false tgt no_others.
  Example stops : rehash_file 5 (mkstate (heap_of [a; d]) (table_of [(s2l "x", 0); (s2l "src/x", 1)])) 0 (s2l "src/x") = Fatal.
  Proof. reflexivity. Qed.
  (** [C69_freed], [C69_variables]. *)
  Example frees : freed (f_vars b) (f_vars a) = [(1, s2l "V")] /\ map fst (merge_lists (f_vars b) (f_vars a)) = [0].
  Proof. split; reflexivity. Qed.


Print Assumptions C69_lookup.
Print Assumptions C69_safe.
Print Assumptions C69_merge.
Print Assumptions C69_frame.
Print Assumptions C69_fatal.
Print Assumptions C69_warning.
Print Assumptions C69_rename.
Print Assumptions C69_variables.
Print Assumptions C69_freed.
Print Assumptions C69_freed_refuted.
Print Assumptions C69_message_refuted.
Print Assumptions C69_abort_refuted.
Print Assumptions C69_breakpoint_refuted.
Print Assumptions C69_double_refuted.

Lemma not_endless m s i to : sound s -> known s i -> entries m (put (heap s) i (not_builtin (heap s i))) (f_colon (heap s i)) <> None -> rehash_file m s i to <> Endless.
Proof.
  intros S K EN. set (h0 := put (heap s) i (not_builtin (heap s i))) in *. destruct (proj1 S _ _ K) as [_ R]. unfold rehash_file. fold h0. replace (h0 i) with (not_builtin (heap s i)) by (symmetry; apply put_same). cbn [f_hname not_builtin].
  destruct (str_eqb (f_hname (heap s i)) to); [discriminate|]. rewrite check_final by (unfold h0; rewrite put_same; exact R). replace (h0 i) with (not_builtin (heap s i)) by (symmetry; apply put_same). cbn [f_hname f_colon not_builtin].
  rewrite str_eqb_refl. cbn [negb]. unfold known in K. rewrite K, Nat.eqb_refl. cbn [negb]. destruct (entries m h0 (f_colon (heap s i))); [|congruence]. destruct (put_name _ _ _ _); [|discriminate]. destruct (clash _ _); discriminate.
Qed.
(** There is a result if the list of entries has an end. *)
Theorem C69_result : forall s i to, sound s -> known s i -> (forall d, f_colon (heap s i) = Some d -> exists e, later (heap s) d e /\ f_prev (heap s e) = None) ->
  exists n, forall m, n <= m -> rehash_file m s i to <> Endless.
Proof.
  intros s i to S K T. set (h0 := put (heap s) i (not_builtin (heap s i))). assert (PV : forall x, f_prev (h0 x) = f_prev (heap s x)) by (intros x; apply prev0).
  assert (EN : exists n, forall m, n <= m -> entries m h0 (f_colon (heap s i)) <> None).
  { destruct (f_colon (heap s i)) as [d|]; [|exists 0; intros [|m] _; discriminate]. destruct (T d eq_refl) as (e & L & P). clear T. induction L as [d | d p e P' L IH].
    - exists 2. intros [|[|m]] M; try lia. cbn [entries]. rewrite PV, P. discriminate.
    - destruct (IH P) as (n & IH'). exists (Datatypes.S n). intros [|m] M; [lia|]. cbn [entries]. rewrite PV, P'. destruct (entries m h0 (Some p)) eqn:E; [discriminate|]. destruct (IH' m ltac:(lia) E). }
  destruct EN as (n & EN). exists n. intros m M. apply not_endless; auto.
Qed.
(** If it has that name, it is only no longer built in. *)
Theorem C69_same : forall n s i, exists s', rehash_file n s i (f_hname (heap s i)) = Done s' None /\ table s' = table s /\ heap s' i = not_builtin (heap s i) /\ forall j, j <> i -> heap s' j = heap s j.
Proof.
  intros n s i. unfold rehash_file. rewrite put_same. cbn [f_hname not_builtin]. rewrite str_eqb_refl. eexists. split; [reflexivity|]. cbn [heap table]. split; [reflexivity|]. split; [apply put_same|]. intros j J. apply put_other. exact J.
Qed.
Print Assumptions C69_result.
Print Assumptions C69_same.
Print Assumptions C69_freed_exact.
Print Assumptions C69_shared.
