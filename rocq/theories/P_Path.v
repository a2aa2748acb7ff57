From Verif Require Import Base M_Text S_Text P_Text M_Path S_Path.
Open Scope nat_scope.

Definition no_slash (s : str) : Prop := ~ In c_slash s.

Lemma comps_word : forall w cur r, no_slash w -> comps_from cur (w ++ r) = comps_from (cur ++ w) r.
Proof.
  induction w as [|c w IH]; intros cur r H; simpl; [rewrite app_nil_r; reflexivity|].
  destruct (Ascii.eqb_spec c c_slash) as [->|N]; [exfalso; apply H; left; reflexivity|].
  rewrite IH, <- app_assoc; [reflexivity|]. intros Hc. apply H. right. exact Hc.
Qed.

Definition starts_sep (r : str) : Prop := match r with [] => True | c :: _ => c = c_slash end.

Lemma comps_cons : forall w r, w <> [] -> no_slash w -> starts_sep r ->
  components (w ++ r) = w :: components r.
Proof.
  intros w r Hw Hn Hr. unfold components. rewrite comps_word by exact Hn. simpl.
  destruct r as [|c r]; simpl in *.
  - destruct w; [contradiction|reflexivity].
  - subst c. rewrite Ascii.eqb_refl. destruct w; [contradiction|reflexivity].
Qed.

Lemma skip_sep_comps : forall s, components (skip_sep s) = components s.
Proof.
  induction s as [|c s IH]; [reflexivity|]. simpl. unfold is_dirsep.
  destruct (Ascii.eqb_spec c c_slash) as [->|N]; [|reflexivity]. exact IH.
Qed.
Lemma skip_sep_spec : forall s, length (skip_sep s) <= length s /\
  (s = [] \/ starts_sep s -> s = [] \/ length (skip_sep s) < length s) /\
  (forall c r, skip_sep s = c :: r -> c <> c_slash).
Proof.
  induction s as [|c s IH]; simpl; [split; [lia|split; [tauto|discriminate]]|].
  unfold is_dirsep. destruct (Ascii.eqb_spec c c_slash) as [->|N].
  - destruct IH as [I1 [I2 I3]]. split; [lia|]. split; [intros _; right; lia|exact I3].
  - split; [simpl; lia|]. split.
    + intros [H|H]; [discriminate|contradiction].
    + intros d r E. inversion E; subst. exact N.
Qed.

Lemma span_comp_spec : forall s w r, span_comp s = (w, r) -> s = w ++ r /\ no_slash w /\ starts_sep r.
Proof.
  induction s as [|c s IH]; intros w r H; simpl in H.
  - inversion H; subst. repeat split. intros [].
  - unfold is_dirsep in H. destruct (Ascii.eqb_spec c c_slash) as [->|N].
    + inversion H; subst. repeat split. intros [].
    + destruct (span_comp s) as [w' r'] eqn:E. inversion H; subst.
      destruct (IH _ _ eq_refl) as [-> [I2 I3]]. repeat split; auto.
      intros [Hc|Hc]; [congruence|]. apply I2. exact Hc.
Qed.

(** Text written so far, reversed, for the reversed component stack. *)
Fixpoint rp (st : list str) : str :=
  match st with [] => [] | c :: st' => rev c ++ c_slash :: rp st' end.
Definition rel (rd : str) (st : list str) : Prop :=
  rd = c_slash :: rp st \/ (st <> [] /\ rd = rp st).
Definition proper (c : str) : Prop := c <> [] /\ no_slash c.

Lemma rp_render : forall st, st <> [] -> rev (rp st) = render (rev st).
Proof.
  assert (G : forall st, rev (rp st) = concat (map (fun c => c_slash :: c) (rev st))).
  { induction st as [|c st IH]; [reflexivity|]. simpl. rewrite rev_app_distr, rev_involutive. simpl.
    rewrite IH, map_app, concat_app. simpl. rewrite app_nil_r, <- app_assoc. reflexivity. }
  intros st H. rewrite G. unfold render. destruct (rev st) eqn:E; [|reflexivity].
  exfalso. apply H. rewrite <- (rev_involutive st), E. reflexivity.
Qed.

Lemma drop_to_sep_app : forall u z, no_slash u -> drop_to_sep (u ++ c_slash :: z) = Some (c_slash :: z).
Proof.
  induction u as [|c u IH]; intros z H; simpl; [reflexivity|]. unfold is_dirsep.
  destruct (Ascii.eqb_spec c c_slash) as [->|N]; [exfalso; apply H; left; reflexivity|].
  apply IH. intros Hc. apply H. right. exact Hc.
Qed.

Lemma rel_head : forall rd st, Forall proper st -> rel rd st ->
  exists c t, rd = c :: t /\
    (if is_dirsep c then rd = c_slash :: rp st else st <> [] /\ rd = rp st).
Proof.
  intros rd st Hp [->|[Hne ->]].
  - exists c_slash, (rp st). split; reflexivity.
  - destruct st as [|c st]; [contradiction|]. inversion Hp as [|? ? [P1 P2] _]; subst. simpl.
    destruct (rev c) as [|d u] eqn:E.
    + exfalso. apply P1. rewrite <- (rev_involutive c), E. reflexivity.
    + exists d, (u ++ c_slash :: rp st). split; [reflexivity|]. unfold is_dirsep.
      destruct (Ascii.eqb_spec d c_slash) as [->|N]; [|split; [discriminate|reflexivity]].
      exfalso. apply P2. apply in_rev. rewrite E. left. reflexivity.
Qed.

Lemma no_slash_rev : forall c, no_slash c -> no_slash (rev c).
Proof. intros c H Hc. apply H. apply in_rev. exact Hc. Qed.

Section Abs.
  Variable limit : nat.

  Lemma finish_ok : forall rd st, Forall proper st -> rel rd st -> length rd <= limit -> 1 < limit ->
    (rd = rp st -> length rd < limit) ->
    abs_finish limit rd = Ok (Some (render (rev st))).
  Proof.
    intros rd st Hp Hr L L1 L2. unfold abs_finish.
    destruct Hr as [->|[Hne ->]].
    - destruct st as [|c st].
      + simpl. destruct (Nat.ltb_spec 1 limit); [reflexivity|lia].
      + assert (Ln : (1 <? length (c_slash :: rp (c :: st))) = true).
        { apply Nat.ltb_lt. simpl. rewrite app_length. simpl. lia. }
        rewrite Ln. cbn [hd is_dirsep andb]. unfold is_dirsep. rewrite Ascii.eqb_refl. cbn [tl].
        destruct (Nat.ltb_spec (length (rp (c :: st))) limit); [|cbn [length] in L; lia].
        rewrite rp_render by discriminate. reflexivity.
    - destruct (rel_head (rp st) st Hp (or_intror (conj Hne eq_refl))) as [c [t [E H]]].
      assert (Hd : is_dirsep (hd c_nul (rp st)) = false).
      { rewrite E. simpl. destruct (is_dirsep c); [|reflexivity]. exfalso.
        assert (length (rp st) = length (c_slash :: rp st)) by (rewrite <- H; reflexivity). simpl in H0. lia. }
      rewrite Hd, andb_false_r. specialize (L2 eq_refl).
      destruct (Nat.ltb_spec (length (rp st)) limit); [|lia]. rewrite rp_render by exact Hne. reflexivity.
  Qed.

  (** Reserve: what is still to be written never exceeds this. *)
  Definition need (rd s : str) : nat :=
    length rd + length s +
    match s with
    | [] => 0
    | c :: _ => if is_dirsep c then 0 else if is_dirsep (hd c_nul rd) then 0 else 1
    end.

  Lemma abs_loop_ok : forall fuel s rd st, length s < fuel -> Forall proper st -> rel rd st ->
    1 < limit -> length rd < limit \/ length rd <= limit /\ rd = c_slash :: rp st ->
    (abs_loop limit fuel rd s = Ok (Some (render (resolve (rev st) (components s)))) /\
     length (render (resolve (rev st) (components s))) < limit) \/
    (abs_loop limit fuel rd s = Ok None /\ limit <= need rd s).
  Proof.
    induction fuel as [|k IH]; intros s rd st L Hp Hr L1 Lr; [lia|]. cbn [abs_loop].
    assert (Fin : components s = [] ->
      (abs_finish limit rd = Ok (Some (render (resolve (rev st) (components s)))) /\
       length (render (resolve (rev st) (components s))) < limit)).
    { intros ->. simpl resolve. assert (F : abs_finish limit rd = Ok (Some (render (rev st)))).
      { apply finish_ok; auto; [destruct Lr as [Lr|[Lr _]]; lia|].
        intros E. destruct Lr as [Lr|[_ E2]]; [exact Lr|]. exfalso. rewrite E in E2.
        assert (length (rp st) = length (c_slash :: rp st)) by (rewrite <- E2; reflexivity). simpl in H. lia. }
      split; [exact F|]. revert F. unfold abs_finish.
      set (rd' := if (1 <? length rd) && is_dirsep (hd c_nul rd) then tl rd else rd).
      destruct (Nat.ltb_spec (length rd') limit); [|discriminate]. intros F. injection F as F.
      rewrite <- F, rev_length. exact H. }
    destruct s as [|c0 s0] eqn:Es; [left; apply Fin; reflexivity|]. rewrite <- Es in *.
    assert (Hs : s <> []) by (rewrite Es; discriminate).
    destruct (span_comp (skip_sep s)) as [w r] eqn:Ew.
    destruct (span_comp_spec _ _ _ Ew) as [W1 [W2 W3]].
    destruct (skip_sep_spec s) as [K1 [K2 K3]].
    destruct w as [|d w'] eqn:Ewd.
    - left. apply Fin. rewrite <- skip_sep_comps, W1. simpl in *.
      destruct r as [|c r]; [reflexivity|]. exfalso. simpl in W3. apply (K3 c r W1). exact W3.
    - rewrite <- Ewd in *. assert (Hw : w <> []) by (rewrite Ewd; discriminate).
      assert (Ec : components s = w :: components r) by (rewrite <- skip_sep_comps, W1; apply comps_cons; auto).
      rewrite Ec. cbn [resolve].
      assert (Lw : 0 < length w) by (rewrite Ewd; simpl; lia).
      assert (Lk : length w + length r <= length s) by (rewrite W1, app_length in K1; exact K1).
      assert (Lr2 : length r < k) by lia.
      (* reserve bookkeeping *)
      assert (Nd : need rd s >= length rd + length w + length r +
                   (if is_dirsep (hd c_nul rd) then 0 else 1)).
      { unfold need. rewrite Es in *. destruct (is_dirsep c0) eqn:Ed.
        - unfold is_dirsep in Ed. apply eqc_true in Ed.
          destruct (K2 (or_intror Ed)) as [K|K]; [discriminate|].
          rewrite W1, app_length in K. destruct (is_dirsep (hd c_nul rd)); lia.
        - destruct (is_dirsep (hd c_nul rd)); lia. }
      assert (Nr : forall rd', need rd' r = length rd' + length r).
      { intros rd'. unfold need. destruct r as [|c r]; [lia|]. simpl in W3. subst c.
        unfold is_dirsep. rewrite Ascii.eqb_refl. lia. }
      destruct (str_eqb w [c_dot]) eqn:D1.
      { destruct (IH r rd st Lr2 Hp Hr L1 Lr) as [I|[I1 I2]]; [left; exact I|right].
        split; [exact I1|]. rewrite Nr in I2. lia. }
      destruct (str_eqb w [c_dot; c_dot]) eqn:D2.
      { destruct st as [|c st].
        - assert (rd = [c_slash]) by (destruct Hr as [->|[H _]]; [reflexivity|contradiction]). subst rd.
          cbn [length Nat.ltb Nat.leb]. cbn [rev removelast].
          destruct (IH r [c_slash] [] Lr2 Hp Hr L1 Lr) as [I|[I1 I2]]; [left; exact I|right].
          split; [exact I1|]. rewrite Nr in I2. lia.
        - inversion Hp as [|? ? [P1 P2] P3]; subst.
          assert (Lrd : (1 <? length rd) = true /\ drop_to_sep (tl rd) = Some (c_slash :: rp st) /\
                        length (c_slash :: rp st) < length rd).
          { destruct Hr as [->|[_ ->]].
            - split; [apply Nat.ltb_lt; simpl; rewrite app_length; simpl; lia|]. cbn [tl rp].
              split; [apply drop_to_sep_app, no_slash_rev, P2|].
              cbn [length]. rewrite app_length. simpl. lia.
            - cbn [rp]. destruct (rev c) as [|e u] eqn:Er.
              + exfalso. apply P1. rewrite <- (rev_involutive c), Er. reflexivity.
              + split; [apply Nat.ltb_lt; simpl; rewrite app_length; simpl; lia|]. cbn [tl app].
                split; [|simpl; rewrite app_length; simpl; lia].
                apply drop_to_sep_app. intros Hc. apply (no_slash_rev _ P2). rewrite Er. right. exact Hc. }
          destruct Lrd as [R1 [R2 R3]]. rewrite R1, R2. cbn [rev]. rewrite removelast_last.
          destruct (IH r (c_slash :: rp st) st Lr2 P3 (or_introl eq_refl) L1) as [I|[I1 I2]].
          + left. destruct Lr as [Lr|[Lr _]]; lia.
          + left. exact I.
          + right. split; [exact I1|]. rewrite Nr in I2. lia. }
      destruct (rel_head rd st Hp Hr) as [c [t [E H]]]. remember (need rd s) as N eqn:EN. rewrite E. cbv zeta.
      assert (Rd1 : (if is_dirsep c then c :: t else c_slash :: c :: t) = c_slash :: rp st).
      { rewrite <- E. destruct (is_dirsep c); [exact H|]. destruct H as [_ H]. rewrite H. reflexivity. }
      unfold str in Rd1 |- *. rewrite Rd1.
      assert (Ln1 : length (c_slash :: rp st) <= length rd + (if is_dirsep (hd c_nul rd) then 0 else 1)).
      { rewrite E. cbn [hd]. rewrite <- Rd1. destruct (is_dirsep c); simpl; lia. }
      assert (Lu : (limit <? length (c_slash :: rp st)) = false).
      { apply Nat.ltb_ge. destruct Lr as [Lr|[Lr E2]].
        - destruct (is_dirsep (hd c_nul rd)); lia.
        - rewrite <- E2. exact Lr. }
      rewrite Lu. destruct (Nat.leb_spec limit (length (c_slash :: rp st) + length w)).
      + right. split; [reflexivity|]. lia.
      + change (rev w ++ c_slash :: rp st) with (rp (w :: st)).
        assert (Lrp : length (rp (w :: st)) = length (c_slash :: rp st) + length w).
        { cbn [rp]. rewrite app_length, rev_length. lia. }
        destruct (IH r (rp (w :: st)) (w :: st) Lr2) as [I|[I1 I2]]; auto.
        * constructor; [split; assumption|exact Hp].
        * right. split; [discriminate|reflexivity].
        * left. lia.
        * right. split; [exact I1|]. rewrite Nr in I2. rewrite Lrp in I2. lia.
  Qed.
End Abs.

Lemma canonical_proper : forall c, canonical c -> proper c.
Proof. intros c [H1 [H2 _]]. split; assumption. Qed.

Lemma components_proper : forall s c, In c (components s) -> proper c.
Proof.
  assert (G : forall s cur c, no_slash cur -> In c (comps_from cur s) -> proper c).
  { induction s as [|a s IH]; intros cur c Hc H; simpl in H.
    - destruct cur; [destruct H|]. destruct H as [<-|[]]. split; [discriminate|exact Hc].
    - destruct (Ascii.eqb_spec a c_slash) as [->|N].
      + unfold add_comp in H. destruct cur; [eapply IH; [|exact H]; intros []|].
        destruct H as [<-|H]; [split; [discriminate|exact Hc]|]. eapply IH; [|exact H]. intros [].
      + eapply IH; [|exact H]. intros Hi. apply in_app_iff in Hi. destruct Hi as [Hi|[Hi|[]]]; [auto|congruence]. }
  intros s c H. eapply G; [|exact H]. intros [].
Qed.

Lemma Forall_removelast : forall (P : str -> Prop) l, Forall P l -> Forall P (removelast l).
Proof.
  intros P l H. induction H as [|x l Hx Hl IH]; [constructor|]. simpl. destruct l; [constructor|].
  constructor; assumption.
Qed.

Lemma resolve_canonical : forall cs l, Forall canonical l -> (forall c, In c cs -> proper c) ->
  Forall canonical (resolve l cs).
Proof.
  induction cs as [|c cs IH]; intros l Hl Hc; [exact Hl|]. cbn [resolve].
  assert (Hc' : forall c, In c cs -> proper c) by (intros d Hd; apply Hc; right; exact Hd).
  destruct (str_eqb c [c_dot]) eqn:D1; [apply IH; auto|].
  destruct (str_eqb c [c_dot; c_dot]) eqn:D2.
  - apply IH; auto. apply Forall_removelast. exact Hl.
  - apply IH; auto. apply Forall_app. split; [exact Hl|]. constructor; [|constructor].
    apply str_eqb_neq in D1. apply str_eqb_neq in D2.
    destruct (Hc c (or_introl eq_refl)) as [P1 P2]. repeat split; assumption.
Qed.

Lemma resolve_self : forall cs l, Forall canonical cs -> resolve l cs = l ++ cs.
Proof.
  induction cs as [|c cs IH]; intros l H; [simpl; rewrite app_nil_r; reflexivity|].
  inversion H as [|? ? [H1 [H2 [H3 H4]]] H5]; subst. cbn [resolve].
  apply str_eqb_neq in H3. apply str_eqb_neq in H4. rewrite H3, H4, IH by assumption.
  rewrite <- app_assoc. reflexivity.
Qed.

Lemma components_render : forall l, Forall canonical l -> components (render l) = l.
Proof.
  assert (G : forall l, Forall canonical l -> components (concat (map (fun c => c_slash :: c) l)) = l).
  { induction l as [|c l IH]; intros H; [reflexivity|]. inversion H as [|? ? [H1 [H2 _]] H5]; subst.
    cbn [map concat]. change (components ((c_slash :: c) ++ concat (map (fun c => c_slash :: c) l)))
      with (components (c ++ concat (map (fun c => c_slash :: c) l))).
    rewrite comps_cons; [f_equal; apply IH; assumption|assumption|exact H2|].
    destruct l; simpl; auto. }
  intros [|c l] H; [reflexivity|]. apply G. exact H.
Qed.

Lemma render_abs : forall l, exists t, render l = c_slash :: t.
Proof. intros [|c l]; simpl; eexists; reflexivity. Qed.

Lemma rel_rev_render : forall cs, Forall canonical cs -> rel (rev (render cs)) (rev cs).
Proof.
  intros cs H. destruct cs as [|c cs]; [left; reflexivity|]. right. split.
  - intros E. assert (rev (rev (c :: cs)) = []) by (rewrite E; reflexivity). rewrite rev_involutive in H0. discriminate.
  - rewrite <- (rev_involutive (c :: cs)) at 1. rewrite <- rp_render, rev_involutive; [reflexivity|].
    intros E. assert (rev (rev (c :: cs)) = []) by (rewrite E; reflexivity). rewrite rev_involutive in H0. discriminate.
Qed.

Definition origin_of (cs : list str) (name : str) : list str := if is_absolute name then [] else cs.

Lemma Forall_rev_str : forall (P : str -> Prop) l, Forall P l -> Forall P (rev l).
Proof. intros P l H. apply Forall_forall. intros x Hx. rewrite Forall_forall in H. apply H. apply in_rev. exact Hx. Qed.

Lemma abspath_ok : forall limit cs name, Forall canonical cs -> length (render cs) < limit -> name <> [] ->
  let r := render (resolve (origin_of cs name) (components name)) in
  (abspath limit (Some (render cs)) name = Ok (Some r) /\ length r < limit) \/
  (abspath limit (Some (render cs)) name = Ok None /\
   limit <= (if is_absolute name then length name else length (render cs) + 1 + length name)).
Proof.
  intros limit cs name Hc L Hn. unfold abspath, origin_of.
  destruct name as [|c0 name0] eqn:En; [contradiction|]. rewrite <- En.
  assert (L1 : 1 <= length (render cs)) by (destruct (render_abs cs) as [t ->]; simpl; lia).
  destruct (is_absolute name) eqn:Ea.
  - assert (Ec : components name = components (tl name)).
    { rewrite En in *. simpl in Ea. apply eqc_true in Ea. subst c0. reflexivity. }
    destruct (abs_loop_ok limit (S (length name)) (tl name) [c_slash] []) as [I|[I1 I2]];
      try (constructor; fail).
    + rewrite En. simpl. lia.
    + left. reflexivity.
    + lia.
    + left. simpl. lia.
    + left. rewrite Ec. exact I.
    + right. split; [exact I1|]. revert I2. unfold need. rewrite En. cbn [tl].
      change (is_dirsep (hd c_nul [c_slash])) with true. cbn [length].
      destruct name0 as [|e n1]; [simpl; lia|]. destruct (is_dirsep e); simpl; lia.
  - destruct (Nat.ltb_spec (length (render cs)) limit); [|lia].
    destruct (abs_loop_ok limit (S (length name)) name (rev (render cs)) (rev cs)) as [I|[I1 I2]].
    + lia.
    + apply Forall_rev_str. eapply Forall_impl; [|exact Hc]. intros a. apply canonical_proper.
    + apply rel_rev_render. exact Hc.
    + lia.
    + left. rewrite rev_length. exact L.
    + rewrite rev_involutive in I. left. exact I.
    + right. split; [exact I1|]. revert I2. unfold need. rewrite rev_length.
      destruct name as [|e n1]; [lia|]. destruct (is_dirsep e); [lia|]. destruct (is_dirsep _); lia.
Qed.

Lemma abspath_idem : forall limit cwd l, Forall canonical l -> length (render l) < limit ->
  abspath limit cwd (render l) = Ok (Some (render l)).
Proof.
  intros limit cwd l Hl L.
  assert (E : abspath limit cwd (render l) = abspath limit (Some (render [])) (render l)).
  { unfold abspath. destruct (render_abs l) as [t ->]. reflexivity. }
  rewrite E. destruct (render_abs l) as [t Et].
  assert (L1 : 1 <= length (render l)) by (rewrite Et; simpl; lia).
  destruct (abspath_ok limit [] (render l)) as [[I _]|[_ I]].
  - constructor.
  - simpl. destruct (Nat.eq_dec limit 1); [|lia]. subst limit. lia.
  - rewrite Et. discriminate.
  - unfold origin_of in I. rewrite components_render in I by exact Hl.
    replace (if is_absolute (render l) then [] else []) with (@nil str) in I by (destruct (is_absolute _); reflexivity).
    rewrite resolve_self in I by exact Hl. exact I.
  - rewrite Et in I at 1. simpl is_absolute in I. cbv iota in I. lia.
Qed.

Definition abs_result (limit : nat) (cs : list str) (w : str) : option str :=
  if length w <? limit then
    match abspath limit (Some (render cs)) w with Ok x => x | _ => None end
  else None.

Lemma func_abspath_ok : forall limit cs a, Forall canonical cs -> length (render cs) < limit ->
  func_abspath limit (Some (render cs)) a = Ok (unwords (somes (map (abs_result limit cs) (words a)))).
Proof.
  intros limit cs a Hc L. unfold func_abspath. rewrite each_token_words.
  assert (F : forall ws o, (forall w, In w ws -> w <> []) ->
    fold_left (abspath_word limit (Some (render cs))) ws (Ok o) = Ok (fold_left (emit (abs_result limit cs)) ws o)).
  { induction ws as [|w ws IH]; intros o Hw; [reflexivity|]. cbn [fold_left].
    assert (E : abspath_word limit (Some (render cs)) (Ok o) w = Ok (emit (abs_result limit cs) o w)).
    { unfold abspath_word, emit, abs_result. destruct (length w <? limit); [|reflexivity].
      destruct (abspath_ok limit cs w Hc L (Hw w (or_introl eq_refl))) as [[-> _]|[-> _]]; reflexivity. }
    rewrite E. apply IH. intros x Hx. apply Hw. right. exact Hx. }
  rewrite F by (intros w Hw; eapply words_props; exact Hw). rewrite kill_emit. reflexivity.
Qed.
