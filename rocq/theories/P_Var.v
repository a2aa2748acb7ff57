From Verif Require Import Base M_Var S_Var.
Open Scope nat_scope.

(** ** Sets *)
Lemma find_remove_same : forall n s, set_find n (set_remove n s) = None.
Proof.
  intros n. induction s as [|[m v] s IH]; [reflexivity|]. simpl.
  destruct (str_eqb n m) eqn:E; [exact IH|]. simpl. rewrite E. exact IH.
Qed.
Lemma find_remove_other : forall n m s, n <> m -> set_find n (set_remove m s) = set_find n s.
Proof.
  intros n m s H. induction s as [|[x v] s IH]; [reflexivity|]. simpl.
  destruct (str_eqb m x) eqn:E.
  - rewrite IH. apply str_eqb_eq in E. subst x.
    destruct (str_eqb n m) eqn:F; [apply str_eqb_eq in F; congruence|reflexivity].
  - simpl. destruct (str_eqb n x); [reflexivity|exact IH].
Qed.
Lemma find_put_same : forall n v s, set_find n (set_put n v s) = Some v.
Proof. intros. simpl. rewrite str_eqb_refl. reflexivity. Qed.
Lemma find_put_other : forall n m v s, n <> m -> set_find n (set_put m v s) = set_find n s.
Proof.
  intros n m v s H. simpl. destruct (str_eqb n m) eqn:E; [apply str_eqb_eq in E; congruence|].
  apply find_remove_other. exact H.
Qed.

(** ** Operations on a set *)
Inductive vop := VDef (n tail value : str) (o : origin) (r : bool) | VUndef (n : str) (o : origin).
Definition vname (x : vop) : str := match x with VDef n _ _ _ _ => n | VUndef n _ => n end.
Definition vevent (x : vop) : event := match x with VDef _ _ v o r => Def o v r | VUndef _ o => Undef o end.
Definition vapply (e : bool) (s : vset) (x : vop) : vset :=
  match x with
  | VDef n t v o r => fst (define_in_set e n t v o r s)
  | VUndef n o => undefine_in_set e n o s
  end.
Definition vrun (e : bool) (s : vset) (ops : list vop) : vset := fold_left (vapply e) ops s.
(** What the operations did to one name. *)
Definition history (n : str) (ops : list vop) : list event :=
  map vevent (filter (fun x => str_eqb n (vname x)) ops).

Lemma rank_upgrade : forall e o, onum (upgrade e o) = rank e o.
Proof. intros [] []; reflexivity. Qed.

Lemma rank_rank : forall e o, rank e (upgrade e o) = rank e o.
Proof. intros [] []; reflexivity. Qed.

(** The state of a name as far as precedence is concerned. *)
Definition cur_def (n : str) (s : vset) : option (origin * str * bool) :=
  match set_find n s with Some v => Some (v_origin v, v_value v, v_recursive v) | None => None end.

Definition ev_step (e : bool) (c : option (origin * str * bool)) (x : event) : option (origin * str * bool) :=
  match x, c with
  | Def o v r, None => Some (upgrade e o, v, r)
  | Def o v r, Some (o', v', r') =>
      if rank e o' <=? rank e o then Some (upgrade e o, v, r) else Some (upgrade e o', v', r')
  | Undef o, None => None
  | Undef o, Some (o', v', r') => if rank e o' <=? rank e o then None else Some (upgrade e o', v', r')
  end.

Lemma vapply_same : forall e s x, cur_def (vname x) (vapply e s x) = ev_step e (cur_def (vname x) s) (vevent x).
Proof.
  intros e s [n t v o r|n o]; cbn [vname vapply vevent]; unfold cur_def.
  - unfold define_in_set. destruct (set_find n s) as [w|] eqn:E.
    + rewrite !rank_upgrade. cbn [fst]. rewrite find_put_same.
      cbn [ev_step]. destruct (rank e (v_origin w) <=? rank e o); reflexivity.
    + cbn [fst]. rewrite find_put_same. reflexivity.
  - unfold undefine_in_set. destruct (set_find n s) as [w|] eqn:E.
    + rewrite !rank_upgrade. cbn [ev_step]. destruct (rank e (v_origin w) <=? rank e o).
      * rewrite find_remove_same. reflexivity.
      * rewrite find_put_same. reflexivity.
    + rewrite E. reflexivity.
Qed.

Lemma vapply_other : forall e s x n, n <> vname x -> set_find n (vapply e s x) = set_find n s.
Proof.
  intros e s [m t v o r|m o] n H; cbn [vname vapply] in *.
  - unfold define_in_set. destruct (set_find m s); cbn [fst]; apply find_put_other; exact H.
  - unfold undefine_in_set. destruct (set_find m s) as [w|]; [|reflexivity].
    destruct (_ <=? _); [apply find_remove_other|apply find_put_other]; exact H.
Qed.

Lemma vrun_history : forall e n ops s,
  cur_def n (vrun e s ops) = fold_left (ev_step e) (history n ops) (cur_def n s).
Proof.
  intros e n. induction ops as [|x ops IH]; intros s; [reflexivity|].
  unfold vrun in *. cbn [fold_left]. rewrite IH. unfold history. cbn [filter].
  destruct (str_eqb n (vname x)) eqn:E.
  - apply str_eqb_eq in E. subst n. cbn [map fold_left]. rewrite vapply_same. reflexivity.
  - apply str_eqb_neq in E. f_equal. unfold cur_def. rewrite vapply_other by exact E. reflexivity.
Qed.

(** Same definition up to the way the environment's origin is written. *)
Definition same_def (e : bool) (a b : origin * str * bool) : Prop :=
  snd (fst a) = snd (fst b) /\ snd a = snd b /\ rank e (fst (fst a)) = rank e (fst (fst b)).

Definition osame e (a b : option (origin * str * bool)) : Prop :=
  match a, b with
  | Some x, Some y => same_def e x y
  | None, None => True
  | _, _ => False
  end.

Lemma ev_step_same : forall e a b x, osame e a b -> osame e (ev_step e a x) (ev_step e b x).
Proof.
  intros e [[[o v] r]|] [[[o' v'] r']|] x H; simpl in H; try contradiction.
  - destruct H as [H1 [H2 H3]]. simpl in *. subst.
    destruct x as [p w t|p]; simpl; rewrite H3; destruct (_ <=? _); simpl; auto;
      unfold same_def; simpl; rewrite ?rank_rank; auto.
  - destruct x; simpl; auto. unfold same_def; auto.
Qed.

Section History.
  Variable e : bool.
  Local Notation run h := (fold_left (ev_step e) h None).

  Definition crank (c : option (origin * str * bool)) : option nat :=
    match c with Some (o, _, _) => Some (rank e o) | None => None end.

  (** A definition that cannot be removed any more. *)
  Lemma kept : forall post o v r, (forall x, In x post -> rank e (by_whom x) < rank e o) ->
    exists o', fold_left (ev_step e) post (Some (o, v, r)) = Some (o', v, r) /\ rank e o' = rank e o.
  Proof.
    induction post as [|x post IH]; intros o v r H; [exists o; auto|]. cbn [fold_left].
    pose proof (H x (or_introl eq_refl)) as Hx.
    assert (E : ev_step e (Some (o, v, r)) x = Some (upgrade e o, v, r)).
    { destruct x as [p w t|p]; simpl in *; destruct (Nat.leb_spec (rank e o) (rank e p)); try lia; reflexivity. }
    rewrite E. destruct (IH (upgrade e o) v r) as [o' [I1 I2]].
    - intros y Hy. rewrite rank_rank. apply H. right. exact Hy.
    - exists o'. rewrite rank_rank in I2. auto.
  Qed.

  (** To get below the rank of a definition, an undefinition at least as strong is needed. *)
  Lemma descent : forall b c k, (exists m, crank c = Some m /\ k <= m) ->
    (forall u, In (Undef u) b -> rank e u < k) -> exists m, crank (fold_left (ev_step e) b c) = Some m /\ k <= m.
  Proof.
    induction b as [|x b IH]; intros c k [m [Hc Hm]] Hu; [exists m; auto|]. cbn [fold_left]. apply IH.
    - destruct c as [[[o v] r]|]; [|discriminate]. simpl in Hc. inversion Hc; subst m. clear Hc.
      destruct x as [p w t|p]; simpl.
      + destruct (Nat.leb_spec (rank e o) (rank e p)); simpl; eexists; (split; [reflexivity|]); rewrite rank_rank; lia.
      + assert (rank e p < k) by (apply Hu; left; reflexivity).
        destruct (Nat.leb_spec (rank e o) (rank e p)); [lia|]. simpl. eexists; split; [reflexivity|]. rewrite rank_rank. lia.
    - intros u Hi. apply Hu. right. exact Hi.
  Qed.

  Lemma in_undef_dec : forall b k, (exists u, In (Undef u) b /\ k <= rank e u) \/ (forall u, In (Undef u) b -> rank e u < k).
  Proof.
    induction b as [|x b IH]; intros k; [right; intros u []|]. destruct (IH k) as [[u [H1 H2]]|H].
    - left. exists u. split; [right; exact H1|exact H2].
    - destruct x as [p w t|p].
      + right. intros u [Hu|Hu]; [discriminate|auto].
      + destruct (Nat.le_gt_cases k (rank e p)).
        * left. exists p. split; [left; reflexivity|assumption].
        * right. intros u [Hu|Hu]; [inversion Hu; subst; assumption|auto].
  Qed.

  (** The definition in force comes from the history. *)
  Lemma run_stands : forall h o v r, run h = Some (o, v, r) ->
    exists o', upgrade e o' = upgrade e o /\ rank e o' = rank e o /\ stands_after e h o' v r.
  Proof.
    induction h as [|x h IH] using rev_ind; intros o v r H; [discriminate|].
    rewrite fold_left_app in H. cbn [fold_left] in H.
    assert (Keep : forall p w t, run h = Some (p, w, t) -> rank e (by_whom x) < rank e p ->
      exists o', upgrade e o' = upgrade e p /\ rank e o' = rank e p /\ stands_after e (h ++ [x]) o' w t).
    { intros p w t Hr Hlt. destruct (IH _ _ _ Hr) as [o' [I1 [I2 [pre [post [I3 [I4 I5]]]]]]].
      exists o'. split; [exact I1|]. split; [exact I2|]. exists pre, (post ++ [x]). split; [|split; [|exact I5]].
      - rewrite I3, <- app_assoc. reflexivity.
      - intros y Hy. apply in_app_iff in Hy. destruct Hy as [Hy|[<-|[]]]; [auto|lia]. }
    assert (New : forall p w t, x = Def p w t -> (forall k, crank (run h) = Some k -> k <= rank e p) ->
      stands_after e (h ++ [x]) p w t).
    { intros p w t -> Hk. exists h, []. split; [reflexivity|]. split; [intros y []|].
      intros a o' v' r' b -> Hlt. destruct (in_undef_dec b (rank e o')) as [Hu|Hu]; [exact Hu|].
      rewrite fold_left_app in Hk. cbn [fold_left] in Hk.
      destruct (descent b (ev_step e (run a) (Def o' v' r')) (rank e o')) as [m [M1 M2]].
      - destruct (run a) as [[[oa va] ra]|]; simpl.
        + destruct (Nat.leb_spec (rank e oa) (rank e o')); simpl; eexists; (split; [reflexivity|]); rewrite rank_rank; lia.
        + eexists; (split; [reflexivity|]). rewrite rank_rank. lia.
      - exact Hu.
      - exfalso. specialize (Hk _ M1). lia. }
    destruct (run h) as [[[p w] t]|] eqn:R.
    - destruct x as [q wq tq|q]; simpl in H.
      + destruct (Nat.leb_spec (rank e p) (rank e q)).
        * inversion H; subst. exists q. split; [destruct e, q; reflexivity|]. split; [rewrite rank_rank; reflexivity|].
          apply New; [reflexivity|]. intros k Hk. simpl in Hk. inversion Hk; subst. assumption.
        * inversion H; subst. destruct (Keep _ _ _ eq_refl) as [o' [K1 [K2 K3]]]; [simpl; assumption|].
          exists o'. split; [rewrite K1; destruct e, p; reflexivity|]. rewrite rank_rank. auto.
      + destruct (Nat.leb_spec (rank e p) (rank e q)); [discriminate|].
        inversion H; subst. destruct (Keep _ _ _ eq_refl) as [o' [K1 [K2 K3]]]; [simpl; assumption|].
        exists o'. split; [rewrite K1; destruct e, p; reflexivity|]. rewrite rank_rank. auto.
    - destruct x as [q wq tq|q]; simpl in H; [|discriminate]. inversion H; subst.
      exists q. split; [destruct e, q; reflexivity|]. split; [rewrite rank_rank; reflexivity|].
      apply New; [reflexivity|]. intros k Hk. discriminate.
  Qed.

  (** ... and a definition that stands after the history is in force. *)
  Lemma stands_run : forall h o v r, stands_after e h o v r ->
    exists o', run h = Some (o', v, r) /\ rank e o' = rank e o.
  Proof.
    intros h o v r [pre [post [-> [H1 H2]]]]. rewrite fold_left_app. cbn [fold_left].
    assert (E : ev_step e (run pre) (Def o v r) = Some (upgrade e o, v, r)).
    { destruct (run pre) as [[[p w] t]|] eqn:R; [|reflexivity]. simpl.
      destruct (Nat.leb_spec (rank e p) (rank e o)); [reflexivity|]. exfalso.
      destruct (run_stands _ _ _ _ R) as [p' [P1 [P2 [a [b [-> [P4 P5]]]]]]].
      destruct (H2 a p' w t b eq_refl) as [u [U1 U2]]; [lia|].
      specialize (P4 _ U1). simpl in P4. lia. }
    rewrite E. destruct (kept post (upgrade e o) v r) as [o' [K1 K2]].
    - intros x Hx. rewrite rank_rank. auto.
    - exists o'. rewrite rank_rank in K2. auto.
  Qed.
End History.

(** ** Visibility *)
Lemma set_find_in : forall n s v, set_find n s = Some v -> In (n, v) s.
Proof.
  intros n. induction s as [|[m w] s IH]; intros v H; [discriminate|]. simpl in H.
  destruct (str_eqb n m) eqn:E; [apply str_eqb_eq in E; inversion H; subst; left; reflexivity|].
  right. apply IH. exact H.
Qed.
Lemma set_find_nodup : forall n s v, NoDup (map fst s) -> In (n, v) s -> set_find n s = Some v.
Proof.
  intros n. induction s as [|[m w] s IH]; intros v N H; [contradiction|]. simpl in *. inversion N; subst.
  destruct H as [H|H].
  - inversion H; subst. rewrite str_eqb_refl. reflexivity.
  - destruct (str_eqb n m) eqn:E; [|apply IH; assumption]. apply str_eqb_eq in E. subst m.
    exfalso. apply H2. change n with (fst (n, v)). apply in_map. exact H.
Qed.
Lemma set_find_none : forall n s, set_find n s = None <-> forall v, ~ In (n, v) s.
Proof.
  intros n. induction s as [|[m w] s IH]; simpl.
  - split; [intros _ v []|reflexivity].
  - destruct (str_eqb n m) eqn:E.
    + apply str_eqb_eq in E. subst m. split; [discriminate|]. intros H. exfalso. apply (H w). left. reflexivity.
    + apply str_eqb_neq in E. rewrite IH. split; intros H v; [intros [Hv|Hv]; [congruence|exact (H v Hv)]|].
      intros Hv. apply (H v). right. exact Hv.
Qed.

(** Sets as the hash tables hold them: one entry per name. *)
Definition sets_ok (c : chain) : Prop := forall nd, In nd c -> NoDup (map fst (n_set nd)).

Lemma lookup_from_spec : forall c p n, sets_ok c ->
  match lookup_from p n c with
  | Some (id, v) => exists i nd, nth_error c i = Some nd /\ n_id nd = id /\ In (n, v) (n_set nd) /\
      (v_private v = true -> p = false /\ forall j nd', j < i -> nth_error c j = Some nd' -> n_parent nd' = false) /\
      (forall j nd' v', j < i -> nth_error c j = Some nd' -> In (n, v') (n_set nd') ->
         v_private v' = true /\ (p = true \/ exists k nd'', k < j /\ nth_error c k = Some nd'' /\ n_parent nd'' = true))
  | None => forall i nd v, nth_error c i = Some nd -> In (n, v) (n_set nd) ->
      v_private v = true /\ (p = true \/ exists k nd'', k < i /\ nth_error c k = Some nd'' /\ n_parent nd'' = true)
  end.
Proof.
  induction c as [|nd c IH]; intros p n OK.
  - simpl. intros [|i] nd v H; discriminate.
  - assert (OK' : sets_ok c) by (intros x Hx; apply OK; right; exact Hx).
    assert (Nd : NoDup (map fst (n_set nd))) by (apply OK; left; reflexivity).
    cbn [lookup_from].
    (* passing over this node *)
    assert (Pass : (forall v, In (n, v) (n_set nd) -> v_private v = true /\ p = true) ->
      match lookup_from (p || n_parent nd) n c with
      | Some (id, v) => exists i nd0, nth_error (nd :: c) i = Some nd0 /\ n_id nd0 = id /\ In (n, v) (n_set nd0) /\
          (v_private v = true -> p = false /\ forall j nd', j < i -> nth_error (nd :: c) j = Some nd' -> n_parent nd' = false) /\
          (forall j nd' v', j < i -> nth_error (nd :: c) j = Some nd' -> In (n, v') (n_set nd') ->
            v_private v' = true /\ (p = true \/ exists k nd'', k < j /\ nth_error (nd :: c) k = Some nd'' /\ n_parent nd'' = true))
      | None => forall i nd0 v, nth_error (nd :: c) i = Some nd0 -> In (n, v) (n_set nd0) ->
          v_private v = true /\ (p = true \/ exists k nd'', k < i /\ nth_error (nd :: c) k = Some nd'' /\ n_parent nd'' = true)
      end).
    { intros Hp. specialize (IH (p || n_parent nd) n OK').
      assert (Sh : forall j, ((p || n_parent nd) = true \/ exists k nd'', k < j /\ nth_error c k = Some nd'' /\ n_parent nd'' = true) ->
        p = true \/ exists k nd'', k < S j /\ nth_error (nd :: c) k = Some nd'' /\ n_parent nd'' = true).
      { intros j [H|[k [nd'' [K1 [K2 K3]]]]].
        - apply orb_true_iff in H. destruct H as [H|H]; [left; exact H|]. right. exists 0, nd. repeat split; [lia|exact H].
        - right. exists (S k), nd''. repeat split; [lia|exact K2|exact K3]. }
      destruct (lookup_from (p || n_parent nd) n c) as [[id v]|].
      - destruct IH as [i [nd0 [A1 [A2 [A3 [A4 A5]]]]]]. exists (S i), nd0. repeat split; try assumption.
        + destruct (A4 H) as [B1 B2]. apply orb_false_iff in B1. apply B1.
        + intros [|j] nd' Hj Hn; simpl in Hn.
          * inversion Hn; subst. destruct (A4 H) as [B1 _]. apply orb_false_iff in B1. apply B1.
          * destruct (A4 H) as [_ B2]. eapply B2; [|exact Hn]. lia.
        + destruct j as [|j]; simpl in H0.
          * inversion H0; subst. apply (Hp _ H1).
          * eapply (A5 j); eauto. lia.
        + destruct j as [|j]; simpl in H0.
          * inversion H0; subst. left. apply (Hp _ H1).
          * apply Sh. eapply (A5 j); eauto. lia.
      - intros [|i] nd0 v Hn Hv; simpl in Hn.
        + inversion Hn; subst. destruct (Hp v Hv) as [P1 P2]. split; [exact P1|left; exact P2].
        + destruct (IH i nd0 v Hn Hv) as [P1 P2]. split; [exact P1|]. apply Sh. exact P2. }
    destruct (set_find n (n_set nd)) as [v|] eqn:F.
    + pose proof (set_find_in _ _ _ F) as Hin.
      destruct (negb p || negb (v_private v)) eqn:E.
      * exists 0, nd. repeat split; try reflexivity; try assumption.
        -- destruct p; [|reflexivity]. simpl in E. rewrite H in E. discriminate.
        -- intros j nd' Hj. lia.
        -- lia.
        -- lia.
      * apply Pass. intros v' Hv'. apply (set_find_nodup _ _ _ Nd) in Hv'. rewrite F in Hv'. inversion Hv'; subst v'.
        apply orb_false_iff in E. destruct E as [E1 E2]. apply negb_false_iff in E1, E2. auto.
    + apply Pass. intros v Hv. exfalso. exact (proj1 (set_find_none n (n_set nd)) F v Hv).
Qed.

Lemma lookup_shows : forall c n id v, sets_ok c -> lookup_variable n c = Some (id, v) ->
  exists i nd, nth_error c i = Some nd /\ n_id nd = id /\ shows c n i v /\
    forall j v', shows c n j v' -> i <= j.
Proof.
  intros c n id v OK H. pose proof (lookup_from_spec c false n OK) as S. unfold lookup_variable in H. rewrite H in S.
  destruct S as [i [nd [A1 [A2 [A3 [A4 A5]]]]]]. exists i, nd. repeat split; try assumption.
  - exists nd. repeat split; try assumption. intros Hp. apply A4. exact Hp.
  - intros j v' [nd' [B1 [B2 B3]]]. destruct (Nat.le_gt_cases i j) as [L|L]; [exact L|]. exfalso.
    destruct (A5 j nd' v' L B1 B2) as [C1 [C2|[k [nd'' [C2 [C3 C4]]]]]]; [discriminate|].
    specialize (B3 C1 k nd'' C2 C3). congruence.
Qed.

Lemma lookup_none : forall c n, sets_ok c -> lookup_variable n c = None <-> forall i v, ~ shows c n i v.
Proof.
  intros c n OK. pose proof (lookup_from_spec c false n OK) as S. unfold lookup_variable. split.
  - intros H. rewrite H in S. intros j v' [nd' [B1 [B2 B3]]].
    destruct (S j nd' v' B1 B2) as [C1 [C2|[k [nd'' [C2 [C3 C4]]]]]]; [discriminate|].
    specialize (B3 C1 k nd'' C2 C3). congruence.
  - intros H. destruct (lookup_from false n c) as [[id v]|] eqn:E; [|reflexivity].
    destruct S as [i [nd [A1 [A2 [A3 [A4 A5]]]]]]. exfalso. apply (H i v). exists nd. repeat split; try assumption.
    intros Hp. apply A4. exact Hp.
Qed.

(** ** Scopes *)
Inductive sop := Push | Pop | Define (n tail value : str) (o : origin) (r : bool).
Definition sstep (e : bool) (s : option scopes) (x : sop) : option scopes :=
  match s with
  | None => None
  | Some s =>
      match x with
      | Push => Some (push_scope s)
      | Pop => pop_scope s
      | Define n t v o r => define_cur e n t v o r s
      end
  end.
Definition srun (e : bool) (s : option scopes) (l : list sop) : option scopes := fold_left (sstep e) l s.

(** Work done inside a scope: definitions, and scopes entered and left. *)
Inductive inner : list sop -> Prop :=
| in_nil : inner []
| in_def : forall n t v o r l, inner l -> inner (Define n t v o r :: l)
| in_scope : forall l l', inner l -> inner l' -> inner (Push :: l ++ Pop :: l').

(** A state with one more scope on top of [s], whatever that scope holds. *)
Definition one_above (s t : scopes) : Prop :=
  exists nd, match cur s with
  | [] => cur t = [] /\ gl t = nd :: gl s
  | _ => cur t = nd :: cur s /\ gl t = gl s
  end.

Lemma push_one : forall s, one_above s (push_scope s).
Proof. intros s. unfold one_above, push_scope. destruct (cur s); eexists; split; reflexivity. Qed.

Lemma pop_one : forall s t, gl s <> [] -> one_above s t ->
  exists u, pop_scope t = Some u /\ cur u = cur s /\ gl u = gl s.
Proof.
  intros s t G [nd H]. unfold pop_scope. destruct (cur s) as [|c0 c] eqn:C; destruct H as [H1 H2]; rewrite H1, H2.
  - destruct (gl s) as [|g g']; [congruence|]. eexists; split; [reflexivity|]. auto.
  - destruct (gl s) as [|g g']; [congruence|]. eexists; split; [reflexivity|]. auto.
Qed.

Lemma inner_one : forall e l, inner l -> forall s t, gl s <> [] -> one_above s t ->
  exists u, srun e (Some t) l = Some u /\ one_above s u.
Proof.
  intros e l I. induction I as [|n t0 v o r l I IH|l l' I IH I' IH']; intros s t G H.
  - exists t. split; [reflexivity|exact H].
  - unfold srun. cbn [fold_left sstep]. unfold define_cur.
    destruct H as [nd H]. destruct (cur s) as [|c0 c] eqn:C; destruct H as [H1 H2]; rewrite H1, H2.
    + destruct (IH s (mkscopes [] (with_set nd (fst (define_in_set e n t0 v o r (n_set nd))) :: gl s) (next_id t))) as [u [U1 U2]];
        [exact G|exists (with_set nd (fst (define_in_set e n t0 v o r (n_set nd)))); rewrite C; split; reflexivity|].
      exists u. split; [exact U1|exact U2].
    + destruct (IH s (mkscopes (with_set nd (fst (define_in_set e n t0 v o r (n_set nd))) :: c0 :: c) (gl s) (next_id t))) as [u [U1 U2]];
        [exact G|exists (with_set nd (fst (define_in_set e n t0 v o r (n_set nd)))); rewrite C; split; reflexivity|].
      exists u. split; [exact U1|exact U2].
  - unfold srun. cbn [fold_left sstep]. rewrite fold_left_app.
    assert (Gt : gl t <> []).
    { destruct H as [nd H]. destruct (cur s); destruct H as [H1 H2]; rewrite H2; [discriminate|exact G]. }
    destruct (IH t (push_scope t) Gt (push_one t)) as [u [U1 U2]]. unfold srun in U1. rewrite U1.
    cbn [fold_left sstep]. destruct (pop_one t u Gt U2) as [w [W1 [W2 W3]]]. rewrite W1.
    apply IH'; [exact G|]. destruct H as [nd H]. exists nd. rewrite W2, W3. exact H.
Qed.

(** ** Pattern-specific variables *)
Lemma pv_matches_iff : forall p target, pv_matches p target = true <-> pat_matches p target.
Proof.
  intros p target. unfold pv_matches, pat_matches, pv_len. split.
  - destruct (Nat.ltb_spec (length target) (length (pv_prefix p) + 1 + length (pv_suffix p))) as [L|L]; [discriminate|].
    intros H. apply andb_true_iff in H. destruct H as [H1 H2]. apply str_eqb_eq in H1, H2.
    set (a := length (pv_prefix p)) in *. set (b := length (pv_suffix p)) in *.
    exists (firstn (length target - b - a) (skipn a target)). split.
    + intros E. apply (f_equal (@length _)) in E. rewrite firstn_length, skipn_length in E. simpl in E. lia.
    + rewrite <- H1 at 1. rewrite <- H2 at 1.
      replace (length target - b) with (a + (length target - b - a)) by lia.
      replace (a + (length target - b - a) - a) with (length target - b - a) by lia.
      assert (G : skipn (a + (length target - b - a)) target = skipn (length target - b - a) (skipn a target)).
      { clear. generalize (length target - b - a). intros k. revert target. induction a; intros t; [reflexivity|].
        destruct t; simpl; [rewrite skipn_nil; reflexivity|]. apply IHa. }
      rewrite G. rewrite firstn_skipn. rewrite firstn_skipn. reflexivity.
  - intros [stem [H1 ->]]. rewrite !app_length.
    assert (0 < length stem) by (destruct stem; [congruence|simpl; lia]).
    destruct (Nat.ltb_spec (length (pv_prefix p) + (length stem + length (pv_suffix p)))
                (length (pv_prefix p) + 1 + length (pv_suffix p))); [lia|].
    apply andb_true_iff. split; apply str_eqb_eq.
    + rewrite firstn_app, Nat.sub_diag, firstn_all. apply app_nil_r.
    + rewrite app_assoc. rewrite skipn_app.
      rewrite skipn_all2 by (rewrite app_length; lia). rewrite app_length.
      replace (length (pv_prefix p) + (length stem + length (pv_suffix p)) - length (pv_suffix p) - (length (pv_prefix p) + length stem)) with 0 by lia.
      reflexivity.
Qed.

(** Insertion of a pattern in front of the longer ones. *)
Fixpoint ins (p : pvar) (l : list pvar) : list pvar :=
  match l with
  | [] => [p]
  | q :: l' => if pv_len p <? pv_len q then p :: l else q :: ins p l'
  end.

Lemma find_insert_ins : forall p l, insert_at (find_insert (pv_len p) l) p l = ins p l.
Proof.
  intros p. induction l as [|q l IH]; [reflexivity|]. simpl. destruct (pv_len p <? pv_len q); [reflexivity|].
  simpl. rewrite IH. reflexivity.
Qed.

Lemma nth_insert_at : forall A (l : list A) k x i, k <= length l ->
  nth_error (insert_at k x l) i = if i <? k then nth_error l i else if i =? k then Some x else nth_error l (i - 1).
Proof.
  induction l as [|y l IH]; intros k x i H; simpl in H.
  - assert (k = 0) by lia. subst. simpl. destruct i as [|i]; [reflexivity|]. simpl. destruct i; reflexivity.
  - destruct k as [|k].
    + simpl. destruct i as [|i]; [reflexivity|]. simpl. rewrite Nat.sub_0_r. reflexivity.
    + simpl. destruct i as [|i]; [reflexivity|]. simpl. rewrite IH by lia.
      change (S i <? S k) with (i <? k). change (S i =? S k) with (i =? k).
      destruct (Nat.ltb_spec i k); [reflexivity|]. destruct (Nat.eqb_spec i k); [reflexivity|].
      rewrite Nat.sub_0_r. destruct i as [|i]; [lia|]. simpl. rewrite Nat.sub_0_r. reflexivity.
Qed.

(** The list is sorted by length; the remembered positions are those of the last pattern of
    their length. *)
Definition sorted (l : list pvar) : Prop :=
  forall i j p q, i <= j -> nth_error l i = Some p -> nth_error l j = Some q -> pv_len p <= pv_len q.
Definition lasts (st : pvars) : Prop :=
  (forall k q, pv_last st k = Some q -> k < 256 /\ exists p, nth_error (pv_list st) q = Some p /\ pv_len p = k /\
     forall j p', nth_error (pv_list st) j = Some p' -> pv_len p' = k -> j <= q).

Lemma find_insert_spec : forall len l, sorted l ->
  find_insert len l <= length l /\
  forall i p, nth_error l i = Some p -> (i < find_insert len l <-> pv_len p <= len).
Proof.
  intros len. induction l as [|q l IH]; intros S.
  - split; [simpl; lia|]. intros [|i] p H; discriminate.
  - assert (S' : sorted l).
    { intros i j p r Hij Hi Hj. apply (S (Datatypes.S i) (Datatypes.S j)); [lia| |]; assumption. }
    destruct (IH S') as [L I]. simpl. destruct (Nat.ltb_spec len (pv_len q)).
    + split; [lia|]. intros i p Hp. split; [lia|]. intros Hl.
      assert (pv_len q <= pv_len p) by (apply (S 0 i q p); [lia|reflexivity|exact Hp]). lia.
    + split; [lia|]. intros [|i] p Hp; simpl in Hp.
      * inversion Hp; subst. split; [intros; assumption|lia].
      * specialize (I i p Hp). lia.
Qed.

Lemma last_is_find_insert : forall st p q, sorted (pv_list st) -> lasts st ->
  pv_last st (pv_len p) = Some q -> S q = find_insert (pv_len p) (pv_list st).
Proof.
  intros st p q S L H. destruct (L _ _ H) as [_ [r [R1 [R2 R3]]]].
  destruct (find_insert_spec (pv_len p) (pv_list st) S) as [F1 F2].
  assert (A : q < find_insert (pv_len p) (pv_list st)) by (apply (F2 q r R1); lia).
  set (k := find_insert (pv_len p) (pv_list st)) in *.
  destruct (Nat.eq_dec (Datatypes.S q) k) as [E|E]; [exact E|]. exfalso.
  destruct (nth_error (pv_list st) (Datatypes.S q)) as [x|] eqn:X.
  - assert (pv_len x <= pv_len p) by (apply (F2 _ x X); lia).
    assert (pv_len r <= pv_len x) by (apply (S q (Datatypes.S q) r x); [lia|assumption|assumption]).
    assert (Datatypes.S q <= q) by (apply (R3 _ x X); lia). lia.
  - apply nth_error_None in X. lia.
Qed.

Lemma create_ins : forall st p, sorted (pv_list st) -> lasts st ->
  pv_list (create_pattern_var p st) = ins p (pv_list st) /\ lasts (create_pattern_var p st).
Proof.
  intros st p S L. unfold create_pattern_var.
  set (pos := match pv_list st with [] => 0 | _ :: _ => _ end).
  assert (P : pos = find_insert (pv_len p) (pv_list st)).
  { unfold pos. destruct (pv_list st) as [|x l] eqn:E; [reflexivity|]. rewrite <- E.
    destruct (pv_len p <? 256); [|reflexivity].
    destruct (pv_last st (pv_len p)) as [q|] eqn:Q; [|reflexivity].
    apply last_is_find_insert; [rewrite E; exact S|exact L|exact Q]. }
  clearbody pos. subst pos. set (k := find_insert (pv_len p) (pv_list st)).
  destruct (find_insert_spec (pv_len p) (pv_list st) S) as [F1 F2]. fold k in F1, F2.
  split; [apply find_insert_ins|].
  intros len q H. cbn [pv_last pv_list] in *.
  destruct ((pv_len p <? 256) && (len =? pv_len p)) eqn:E.
  - apply andb_true_iff in E. destruct E as [E0 E]. apply Nat.eqb_eq in E. subst len. inversion H; subst q.
    split; [apply Nat.ltb_lt; exact E0|].
    exists p. split; [rewrite nth_insert_at by exact F1; rewrite Nat.ltb_irrefl, Nat.eqb_refl; reflexivity|].
    split; [reflexivity|]. intros j p' Hj Hl. rewrite nth_insert_at in Hj by exact F1.
    destruct (Nat.ltb_spec j k); [lia|]. destruct (Nat.eqb_spec j k); [lia|].
    assert (j - 1 < k) by (apply (F2 _ p' Hj); lia). lia.
  - destruct (pv_last st len) as [q0|] eqn:Q; [|discriminate]. inversion H; subst q. clear H.
    destruct (L _ _ Q) as [R0 [r [R1 [R2 R3]]]]. split; [exact R0|]. exists r.
    assert (NE : len = pv_len p -> pv_len p <? 256 = false).
    { intros ->. rewrite Nat.eqb_refl, andb_true_r in E. exact E. }
    split; [|split; [exact R2|]].
    + rewrite nth_insert_at by exact F1. destruct (Nat.ltb_spec q0 k).
      * destruct (Nat.ltb_spec q0 k); [exact R1|lia].
      * destruct (Nat.ltb_spec (Datatypes.S q0) k); [lia|]. destruct (Nat.eqb_spec (Datatypes.S q0) k); [lia|].
        simpl. rewrite Nat.sub_0_r. exact R1.
    + intros j p' Hj Hl. rewrite nth_insert_at in Hj by exact F1.
      destruct (Nat.ltb_spec j k).
      * specialize (R3 _ _ Hj Hl). destruct (q0 <? k); lia.
      * destruct (Nat.eqb_spec j k).
        -- inversion Hj; subst p'. exfalso.
           specialize (NE (eq_sym Hl)). apply Nat.ltb_ge in NE. lia.
        -- specialize (R3 _ _ Hj Hl). destruct (Nat.ltb_spec q0 k); lia.
Qed.

Lemma ins_in : forall p l x, In x (ins p l) <-> x = p \/ In x l.
Proof.
  intros p. induction l as [|q l IH]; intros x; simpl.
  - intuition.
  - destruct (pv_len p <? pv_len q); simpl; [intuition|]. rewrite IH. intuition.
Qed.

Inductive srt : list pvar -> Prop :=
| srt_nil : srt []
| srt_cons : forall p l, (forall q, In q l -> pv_len p <= pv_len q) -> srt l -> srt (p :: l).

Lemma srt_sorted : forall l, srt l -> sorted l.
Proof.
  induction 1 as [|p l H S IH]; intros i j a b Hij Hi Hj.
  - destruct i; discriminate.
  - destruct i as [|i], j as [|j]; simpl in *; try lia.
    + inversion Hi; inversion Hj; subst. lia.
    + inversion Hi; subst. apply H. eapply nth_error_In. exact Hj.
    + apply (IH i j); [lia| |]; assumption.
Qed.

Lemma ins_srt : forall p l, srt l -> srt (ins p l).
Proof.
  intros p l S. induction S as [|q l H S IH]; simpl.
  - constructor; [intros q []|constructor].
  - destruct (Nat.ltb_spec (pv_len p) (pv_len q)).
    + constructor; [|constructor; assumption]. intros x [<-|Hx]; [lia|]. specialize (H x Hx). lia.
    + constructor; [|exact IH]. intros x Hx. apply ins_in in Hx. destruct Hx as [->|Hx]; [assumption|auto].
Qed.

Definition empty_pvars : pvars := mkpvars [] (fun _ => None).
Definition create_all (ps : list pvar) : pvars := fold_left (fun st p => create_pattern_var p st) ps empty_pvars.

Lemma create_all_ins : forall ps,
  pv_list (create_all ps) = fold_left (fun l p => ins p l) ps [] /\ lasts (create_all ps) /\ srt (pv_list (create_all ps)).
Proof.
  intros ps. unfold create_all. induction ps as [|p ps IH] using rev_ind.
  - split; [reflexivity|]. split; [intros k q H; discriminate|constructor].
  - rewrite !fold_left_app. cbn [fold_left]. destruct IH as [I1 [I2 I3]].
    destruct (create_ins _ p (srt_sorted _ I3) I2) as [C1 C2]. rewrite C1.
    split; [rewrite I1; reflexivity|]. split; [exact C2|apply ins_srt; exact I3].
Qed.

Lemma filter_ins : forall f p l, srt l -> filter f (ins p l) = if f p then ins p (filter f l) else filter f l.
Proof.
  intros f p l S. induction S as [|q l H S IH]; cbn [ins filter].
  - destruct (f p); reflexivity.
  - destruct (Nat.ltb_spec (pv_len p) (pv_len q)) as [L|L].
    + cbn [filter]. destruct (f p) eqn:Fp; [|reflexivity]. destruct (f q) eqn:Fq.
      * cbn [ins]. destruct (Nat.ltb_spec (pv_len p) (pv_len q)); [reflexivity|lia].
      * (* all the rest is longer *)
        assert (G : forall m, (forall x, In x m -> pv_len p < pv_len x) -> ins p m = p :: m).
        { intros [|x m] Hm; [reflexivity|]. simpl. destruct (Nat.ltb_spec (pv_len p) (pv_len x)); [reflexivity|].
          specialize (Hm x (or_introl eq_refl)). lia. }
        rewrite G; [reflexivity|]. intros x Hx. apply filter_In in Hx. destruct Hx as [Hx _]. specialize (H x Hx). lia.
    + cbn [filter]. rewrite IH. destruct (f q) eqn:Fq; destruct (f p) eqn:Fp; try reflexivity.
      cbn [ins]. destruct (Nat.ltb_spec (pv_len p) (pv_len q)); [lia|reflexivity].
Qed.

Definition isorted (ps : list pvar) : list pvar := fold_left (fun l p => ins p l) ps [].

Lemma isorted_srt : forall ps, srt (isorted ps).
Proof.
  intros ps. unfold isorted. induction ps as [|p ps IH] using rev_ind; [constructor|].
  rewrite fold_left_app. cbn [fold_left]. apply ins_srt. exact IH.
Qed.

Lemma filter_isorted : forall f ps, filter f (isorted ps) = isorted (filter f ps).
Proof.
  intros f ps. induction ps as [|p ps IH] using rev_ind; [reflexivity|].
  pose proof (isorted_srt ps) as S. unfold isorted in *. rewrite fold_left_app. cbn [fold_left].
  rewrite filter_ins by exact S. rewrite filter_app. cbn [filter]. destruct (f p).
  - rewrite fold_left_app. cbn [fold_left]. rewrite IH. reflexivity.
  - rewrite app_nil_r. exact IH.
Qed.

Lemma ins_perm : forall p l, Permutation (ins p l) (p :: l).
Proof.
  intros p. induction l as [|q l IH]; simpl; [reflexivity|]. destruct (_ <? _); [reflexivity|].
  rewrite IH. apply perm_swap.
Qed.
Lemma isorted_perm : forall ps, Permutation (isorted ps) ps.
Proof.
  intros ps. unfold isorted. induction ps as [|p ps IH] using rev_ind; [reflexivity|].
  rewrite fold_left_app. cbn [fold_left]. rewrite ins_perm, IH. apply Permutation_cons_append.
Qed.

(** The last of the sorted list. *)
Lemma ins_last : forall p l d, srt l -> l <> [] ->
  last (ins p l) d = if pv_len p <? pv_len (last l d) then last l d else p.
Proof.
  intros p l d S. induction S as [|q l H S IH]; intros N; [congruence|]. cbn [ins].
  destruct l as [|r l].
  - cbn [ins last]. destruct (pv_len p <? pv_len q) eqn:E; reflexivity.
  - destruct (Nat.ltb_spec (pv_len p) (pv_len q)) as [L|L].
    + change (last (p :: q :: r :: l) d) with (last (r :: l) d).
      change (last (q :: r :: l) d) with (last (r :: l) d).
      assert (In (last (r :: l) d) (r :: l)).
      { destruct (@exists_last _ (r :: l)) as [l' [a E]]; [discriminate|]. rewrite E, last_last. apply in_or_app. right. left. reflexivity. }
      specialize (H _ H0). destruct (Nat.ltb_spec (pv_len p) (pv_len (last (r :: l) d))); [reflexivity|lia].
    + change (last (q :: r :: l) d) with (last (r :: l) d). rewrite <- IH by discriminate.
      destruct (ins p (r :: l)) eqn:E; [|reflexivity].
      exfalso. apply (f_equal (@length _)) in E. rewrite (Permutation_length (ins_perm p (r :: l))) in E. discriminate.
Qed.

Lemma isorted_last : forall ps d, ps <> [] ->
  exists pre post, ps = pre ++ last (isorted ps) d :: post /\
    (forall q, In q pre -> pv_len q <= pv_len (last (isorted ps) d)) /\
    (forall q, In q post -> pv_len q < pv_len (last (isorted ps) d)).
Proof.
  intros ps d. induction ps as [|p ps IH] using rev_ind; intros N; [congruence|].
  pose proof (isorted_srt ps) as S. pose proof (isorted_perm ps) as P.
  unfold isorted in *. rewrite fold_left_app. cbn [fold_left].
  destruct ps as [|r ps0] eqn:E.
  - simpl. exists [], []. split; [reflexivity|]. split; intros q [].
  - rewrite <- E in *. set (l := fold_left _ ps []) in *.
    assert (Nl : l <> []).
    { intros El. rewrite El in P. apply Permutation_nil in P. rewrite E in P. discriminate. }
    rewrite ins_last by assumption.
    destruct IH as [pre [post [I1 [I2 I3]]]]; [rewrite E; discriminate|].
    destruct (Nat.ltb_spec (pv_len p) (pv_len (last l d))) as [L|L].
    + exists pre, (post ++ [p]). split; [rewrite I1 at 1; rewrite <- app_assoc; reflexivity|]. split; [exact I2|].
      intros q Hq. apply in_app_iff in Hq. destruct Hq as [Hq|[<-|[]]]; [auto|assumption].
    + exists ps, []. split; [reflexivity|]. split; [|intros q []].
      intros q Hq. rewrite I1 in Hq. apply in_app_iff in Hq. destruct Hq as [Hq|[<-|Hq]]; [specialize (I2 q Hq)| |specialize (I3 q Hq)]; lia.
Qed.

Definition pv_op (p : pvar) : vop := VDef (pv_name p) [] (pv_value p) (pv_origin p) (pv_rec p).
Lemma pat_set_run : forall e st t, pat_set e st t = vrun e [] (map pv_op (pattern_vars_for st t)).
Proof.
  intros e st t. unfold pat_set, vrun. generalize (@nil (str * var)) as s.
  induction (pattern_vars_for st t) as [|p l IH]; intros s; [reflexivity|]. cbn [map fold_left vapply pv_op]. apply IH.
Qed.

Lemma history_pv : forall n l, history n (map pv_op l) =
  map (fun p => Def (pv_origin p) (pv_value p) (pv_rec p)) (filter (fun p => str_eqb n (pv_name p)) l).
Proof.
  intros n. induction l as [|p l IH]; [reflexivity|]. unfold history in *. cbn [map filter pv_op vname].
  destruct (str_eqb n (pv_name p)); [|exact IH]. cbn [map vevent]. rewrite <- IH. reflexivity.
Qed.

(** Events of one origin: the last one is in force. *)
Lemma run_one_origin : forall e o (l : list pvar) d, l <> [] -> (forall p, In p l -> pv_origin p = o) ->
  exists o', fold_left (ev_step e) (map (fun p => Def (pv_origin p) (pv_value p) (pv_rec p)) l) None
             = Some (o', pv_value (last l d), pv_rec (last l d)) /\ rank e o' = rank e o.
Proof.
  intros e o l d. induction l as [|p l IH] using rev_ind; intros N H; [congruence|].
  rewrite map_app, fold_left_app, last_last. cbn [map fold_left].
  assert (pv_origin p = o) by (apply H; apply in_or_app; right; left; reflexivity).
  destruct l as [|q l0] eqn:E.
  - simpl. eexists. split; [reflexivity|]. rewrite rank_rank. congruence.
  - rewrite <- E in *. destruct IH as [o' [I1 I2]]; [rewrite E; discriminate|intros x Hx; apply H; apply in_or_app; left; exact Hx|].
    rewrite I1. simpl. rewrite I2, H0, Nat.leb_refl. eexists. split; [reflexivity|]. apply rank_rank.
Qed.

(** ** Environments *)
Section EnvProof.
  Variable export_all : bool.
  Variable shell_value : option str.
  Variable global : vset.
  Local Notation cand := (env_candidate export_all shell_value global).
  Local Notation addc := (add_candidate export_all shell_value global).
  Local Notation table := (env_table export_all shell_value global).

  Definition tfind (n : str) (t : list (str * (nat * var))) : option (nat * var) :=
    match find (fun x => str_eqb n (fst x)) t with Some x => Some (snd x) | None => None end.

  Lemma tfind_app : forall n t t', tfind n (t ++ t') = match tfind n t with Some x => Some x | None => tfind n t' end.
  Proof.
    intros n. unfold tfind. induction t as [|x t IH]; intros t'; [reflexivity|]. simpl.
    destruct (str_eqb n (fst x)); [reflexivity|apply IH].
  Qed.

  Lemma tfind_exists : forall n t, existsb (fun x => str_eqb n (fst x)) t = true <-> tfind n t <> None.
  Proof.
    intros n. unfold tfind. induction t as [|x t IH]; simpl; [split; [discriminate|congruence]|].
    destruct (str_eqb n (fst x)); simpl; [split; [discriminate|reflexivity]|exact IH].
  Qed.

  Lemma addc_find : forall id t m v n, tfind n (addc id t (m, v)) =
    match tfind n t with
    | Some x => Some x
    | None => if str_eqb n m then match cand m v with Some w => Some (id, w) | None => None end else None
    end.
  Proof.
    intros id t m v n. unfold add_candidate. cbn [fst snd]. destruct (cand m v) as [w|] eqn:C.
    - destruct (existsb (fun x => str_eqb m (fst x)) t) eqn:X.
      + destruct (tfind n t) eqn:T; [reflexivity|]. destruct (str_eqb n m) eqn:E; [|reflexivity].
        apply str_eqb_eq in E. subst n. apply tfind_exists in X. congruence.
      + rewrite tfind_app. destruct (tfind n t) eqn:T; [reflexivity|]. unfold tfind. simpl.
        destruct (str_eqb n m); reflexivity.
    - destruct (tfind n t); [reflexivity|]. destruct (str_eqb n m); reflexivity.
  Qed.

  Lemma fold_find : forall id s n t, NoDup (map fst s) ->
    tfind n (fold_left (addc id) s t) =
    match tfind n t with
    | Some x => Some x
    | None => match set_find n s with
              | Some v => match cand n v with Some w => Some (id, w) | None => None end
              | None => None end
    end.
  Proof.
    intros id. induction s as [|[m v] s IH]; intros n t N; cbn [fold_left set_find].
    - destruct (tfind n t); reflexivity.
    - simpl in N. inversion N; subst. rewrite IH by assumption. rewrite addc_find.
      destruct (tfind n t) as [x|]; [reflexivity|]. destruct (str_eqb n m) eqn:E; [|reflexivity].
      apply str_eqb_eq in E. subst m. destruct (cand n v); [reflexivity|].
      destruct (set_find n s) as [w|] eqn:F; [|reflexivity]. exfalso. apply H1.
      apply set_find_in in F. change n with (fst (n, w)). apply in_map. exact F.
  Qed.

  Lemma table_find : forall c t n, sets_ok c ->
    tfind n (table t c) =
    match tfind n t with
    | Some x => Some x
    | None =>
        match find (fun nd => match set_find n (n_set nd) with Some v => match cand n v with Some _ => true | None => false end | None => false end) c with
        | Some nd => match set_find n (n_set nd) with Some v => match cand n v with Some w => Some (n_id nd, w) | None => None end | None => None end
        | None => None
        end
    end.
  Proof.
    induction c as [|nd c IH]; intros t n OK; cbn [env_table find].
    - destruct (tfind n t); reflexivity.
    - rewrite IH by (intros x Hx; apply OK; right; exact Hx).
      rewrite fold_find by (apply OK; left; reflexivity).
      destruct (tfind n t) as [x|]; [reflexivity|].
      destruct (set_find n (n_set nd)) as [v|] eqn:F; [|reflexivity].
      destruct (cand n v) as [w|] eqn:C; [rewrite F, C; reflexivity|reflexivity].
  Qed.

  (** No name twice. *)
  Lemma addc_nodup : forall id t x, NoDup (map fst t) -> NoDup (map fst (addc id t x)).
  Proof.
    intros id t x N. unfold add_candidate. destruct (cand _ _); [|exact N].
    destruct (existsb _ t) eqn:X; [exact N|]. rewrite map_app. simpl.
    eapply Permutation_NoDup; [apply Permutation_cons_append|]. constructor; [|exact N].
    intros Hi. apply in_map_iff in Hi. destruct Hi as [y [Y1 Y2]].
    assert (existsb (fun x0 => str_eqb (fst x) (fst x0)) t = true); [|congruence].
    apply existsb_exists. exists y. split; [exact Y2|]. apply str_eqb_eq. congruence.
  Qed.
  Lemma table_nodup : forall c t, NoDup (map fst t) -> NoDup (map fst (table t c)).
  Proof.
    induction c as [|nd c IH]; intros t N; [exact N|]. cbn [env_table]. apply IH.
    revert t N. induction (n_set nd) as [|x s IHs]; intros t N; [exact N|]. cbn [fold_left]. apply IHs. apply addc_nodup. exact N.
  Qed.
End EnvProof.
