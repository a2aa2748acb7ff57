From Verif Require Import Base M_Hash S_Hash P_Hash Properties_Hash P_Text M_StrCache.
Open Scope nat_scope.

(** ** Running hash operations one after the other *)
Section Runs.
  Variable A : Type.
  Variable same : A -> A -> bool.
  Variable hash1 hash2 : A -> nat.

  Lemma grun_app : forall ops1 ops2 t t1 rs1,
    run A same hash1 hash2 t ops1 = Some (t1, rs1) ->
    run A same hash1 hash2 t (ops1 ++ ops2) =
    match run A same hash1 hash2 t1 ops2 with Some (t2, rs2) => Some (t2, rs1 ++ rs2) | None => None end.
  Proof.
    induction ops1 as [|o ops1 IH]; intros ops2 t t1 rs1 H; cbn [run app] in *.
    - inversion H; subst. destruct (run _ _ _ _ _ ops2) as [[? ?]|]; reflexivity.
    - destruct (step _ _ _ _ t o) as [[t' r]|]; [|discriminate].
      destruct (run A same hash1 hash2 t' ops1) as [[t'' rs]|] eqn:E; [|discriminate].
      inversion H; subst. rewrite (IH ops2 t' t1 rs E).
      destruct (run _ _ _ _ t1 ops2) as [[? ?]|]; reflexivity.
  Qed.

  Lemma gouts_app : forall ops1 ops2 m rs1 rs2, length rs1 = length ops1 ->
    outs_ok A same m (ops1 ++ ops2) (rs1 ++ rs2) <->
    outs_ok A same m ops1 rs1 /\ outs_ok A same (m_final A same m ops1) ops2 rs2.
  Proof.
    induction ops1 as [|o ops1 IH]; intros ops2 m rs1 rs2 H; destruct rs1 as [|r rs1]; simpl in H; try lia.
    - simpl. tauto.
    - cbn [app outs_ok]. rewrite IH by lia. unfold m_final. simpl. tauto.
  Qed.

  Lemma gouts_length : forall ops m rs, outs_ok A same m ops rs -> length rs = length ops.
  Proof.
    induction ops as [|o ops IH]; intros m [|r rs] H; simpl in H; try tauto.
    simpl. f_equal. eapply IH. apply H.
  Qed.

  Hypothesis CL : client_ok A same hash1 hash2.
  Variable hint : N.
  Hypothesis HH : (8 <= hint < 2 ^ 63)%N.

  (** [t] was reached by operations whose effect is the map [m]. *)
  Definition reached (t : ht A) (m : list A) : Prop :=
    exists ops rs, run A same hash1 hash2 (hash_init A hint) ops = Some (t, rs) /\
                   m = m_final A same [] ops.

  Lemma reached_init : reached (hash_init A hint) [].
  Proof. exists [], []. split; reflexivity. Qed.

  Lemma reached_step : forall t m o, reached t m ->
    exists t' r, step A same hash1 hash2 t o = Some (t', r) /\ out_ok A same m o r /\
                 reached t' (fst (m_step A same m o)).
  Proof.
    intros t m o [ops [rs [R ->]]].
    destruct (C01_hash_refines_map A same hash1 hash2 CL hint (ops ++ [o]) HH) as [t2 [rs2 [R2 [O2 _]]]].
    destruct (C01_hash_refines_map A same hash1 hash2 CL hint ops HH) as [t1 [rs1 [R1 [O1 _]]]].
    assert (E : (t1, rs1) = (t, rs)) by congruence. inversion E; subst.
    rewrite (grun_app _ _ _ _ _ R) in R2. cbn [run] in R2.
    destruct (step A same hash1 hash2 t o) as [[t' r]|] eqn:S; [|discriminate].
    exists t', r. split; [reflexivity|]. inversion R2; subst.
    apply gouts_app in O2; [|apply (gouts_length _ _ _ O1)]. destruct O2 as [_ O2]. simpl in O2.
    split; [apply O2|]. exists (ops ++ [o]), (rs ++ [r]). split.
    - rewrite (grun_app _ _ _ _ _ R). cbn [run]. rewrite S. reflexivity.
    - unfold m_final. rewrite fold_left_app. reflexivity.
  Qed.

  Lemma reached_find : forall t m k, reached t m ->
    find_item A same hash1 hash2 t k = Some (m_find A same m k).
  Proof.
    intros t m k H. destruct (reached_step t m (Find k) H) as [t' [r [S [O _]]]].
    cbn [step] in S. destruct (find_item A same hash1 hash2 t k) as [x|]; [|discriminate].
    inversion S; subst. simpl in O. rewrite O. reflexivity.
  Qed.

  Lemma reached_insert : forall t m a, reached t m ->
    exists t', insert A same hash1 hash2 t a = Some (t', m_find A same m a) /\
               reached t' (a :: m_remove A same m a).
  Proof.
    intros t m k H. destruct (reached_step t m (Insert k) H) as [t' [r [S [O R]]]].
    cbn [step] in S. destruct (insert A same hash1 hash2 t k) as [[t2 x]|]; [|discriminate].
    inversion S; subst. simpl in O. subst x. exists t'. split; [reflexivity|exact R].
  Qed.

  Lemma reached_delete : forall t m a, reached t m ->
    exists t', delete A same hash1 hash2 t a = Some (t', m_find A same m a) /\
               reached t' (m_remove A same m a).
  Proof.
    intros t m k H. destruct (reached_step t m (Delete k) H) as [t' [r [S [O R]]]].
    cbn [step] in S. destruct (delete A same hash1 hash2 t k) as [[t2 x]|]; [|discriminate].
    inversion S; subst. simpl in O. subst x. exists t'. split; [reflexivity|exact R].
  Qed.
End Runs.

(** ** Memory *)
Definition nul_free (s : str) : Prop := ~ In c_nul s.

Lemma until_nul_app : forall s z, nul_free s -> until_nul (s ++ c_nul :: z) = Some s.
Proof.
  induction s as [|c s IH]; intros z H; simpl; [reflexivity|].
  destruct (Ascii.eqb_spec c c_nul) as [->|N]; [exfalso; apply H; left; reflexivity|].
  rewrite IH; [reflexivity|]. intros Hc. apply H. right. exact Hc.
Qed.

Lemma write_at_spec : forall mem off w m, write_at mem off w = Some m ->
  length m = length mem /\ firstn off m = firstn off mem /\
  (exists z, skipn off m = w ++ z) /\ off + length w <= length mem.
Proof.
  intros mem off w m H. unfold write_at in H.
  destruct (Nat.leb_spec (off + length w) (length mem)) as [L|]; [|discriminate].
  inversion H; subst. assert (Lf : length (firstn off mem) = off) by (rewrite firstn_length; lia).
  split; [|split; [|split]].
  - rewrite !app_length, skipn_length. lia.
  - rewrite firstn_app, Lf, Nat.sub_diag. rewrite firstn_all2 by lia. apply app_nil_r.
  - exists (skipn (off + length w) mem). rewrite skipn_app, Lf, Nat.sub_diag.
    rewrite skipn_all2 by lia. reflexivity.
  - exact L.
Qed.

Lemma write_at_total : forall mem off w, off + length w <= length mem -> exists m, write_at mem off w = Some m.
Proof.
  intros mem off w H. unfold write_at. destruct (Nat.leb_spec (off + length w) (length mem)); [|lia].
  eexists. reflexivity.
Qed.

(** [s] and its terminator stand at [off], in front of [e]. *)
Definition stands (m : str) (off e : nat) (s : str) : Prop :=
  off + length s + 1 <= e /\ exists z, skipn off m = s ++ c_nul :: z.

Lemma stands_fun : forall m off e e' s s', nul_free s -> nul_free s' ->
  stands m off e s -> stands m off e' s' -> s = s'.
Proof.
  intros m off e e' s s' H H' [_ [z E]] [_ [z' E']].
  assert (Some s = Some s'); [|congruence].
  rewrite <- (until_nul_app s z H), <- (until_nul_app s' z' H'), <- E, <- E'. reflexivity.
Qed.

Lemma firstn_prefix : forall (w : str) (z : str), firstn (length w) (w ++ z) = w.
Proof. intros. rewrite firstn_app, Nat.sub_diag, firstn_all. apply app_nil_r. Qed.

Lemma stands_keep : forall m m' off e e' s, firstn e m' = firstn e m -> e <= e' -> e <= length m ->
  stands m off e s -> stands m' off e' s.
Proof.
  intros m m' off e e' s Hf He Hl [L [z E]]. split; [lia|].
  exists (skipn (length s + 1) (skipn off m')).
  assert (G : firstn (length s + 1) (skipn off m') = firstn (length s + 1) (skipn off m)).
  { rewrite !firstn_skipn_comm.
    replace (firstn (off + (length s + 1)) m') with (firstn (off + (length s + 1)) (firstn e m'))
      by (rewrite firstn_firstn; f_equal; lia).
    replace (firstn (off + (length s + 1)) m) with (firstn (off + (length s + 1)) (firstn e m))
      by (rewrite firstn_firstn; f_equal; lia).
    rewrite Hf. reflexivity. }
  rewrite <- (firstn_skipn (length s + 1) (skipn off m')) at 1. rewrite G, E.
  change (s ++ c_nul :: z) with (s ++ [c_nul] ++ z). rewrite app_assoc.
  replace (length s + 1) with (length (s ++ [c_nul])) at 1 by (rewrite app_length; reflexivity).
  rewrite firstn_prefix, <- app_assoc. reflexivity.
Qed.

Section SC.
  Variable umax bufsize : nat.
  Variable h1 h2 : str -> nat.
  Hypothesis BS : bufsize <= umax.

  Definition blocks (st : sc) : list block := avail st ++ full st.
  Definition bwf (b : block) : Prop := b_end b + b_free b = length (b_mem b) /\ length (b_mem b) <= umax.

  Record wf (st : sc) : Prop := {
    wf_nodup : NoDup (map b_id (blocks st) ++ map fst (huge st));
    wf_lt : forall i, In i (map b_id (blocks st) ++ map fst (huge st)) -> i < nid st;
    wf_b : forall b, In b (blocks st) -> bwf b }.

  Definition holds (st : sc) (h : handle) (s : str) : Prop :=
    (exists b, In b (blocks st) /\ b_id b = fst h /\ stands (b_mem b) (snd h) (b_end b) s) \/
    (exists m, In (fst h, m) (huge st) /\ snd h = 0 /\ m = s ++ [c_nul]).

  (** Later states keep everything written. *)
  Definition ext (st st' : sc) : Prop :=
    (forall b, In b (blocks st) -> exists b', In b' (blocks st') /\ b_id b' = b_id b /\
       b_end b <= b_end b' /\ firstn (b_end b) (b_mem b') = firstn (b_end b) (b_mem b)) /\
    incl (huge st) (huge st').

  Lemma holds_ext : forall st st' h s, wf st -> ext st st' -> holds st h s -> holds st' h s.
  Proof.
    intros st st' h s W [E1 E2] [[b [H1 [H2 H3]]]|[m [H1 H2]]].
    - left. destruct (E1 b H1) as [b' [A1 [A2 [A3 A4]]]]. exists b'. split; [exact A1|].
      split; [congruence|]. destruct (wf_b st W b H1) as [B1 B2].
      eapply stands_keep; eauto. lia.
    - right. exists m. split; [apply E2; exact H1|exact H2].
  Qed.

  Lemma nodup_block : forall st b b', wf st -> In b (blocks st) -> In b' (blocks st) ->
    b_id b = b_id b' -> b = b'.
  Proof.
    intros st b b' W. pose proof (wf_nodup st W) as N.
    assert (N' : NoDup (map b_id (blocks st))).
    { clear -N. induction (map b_id (blocks st)) as [|x l IH]; [constructor|]. simpl in N. inversion N; subst.
      constructor; [|apply IH; assumption]. intros H. apply H1. apply in_or_app. left. exact H. }
    clear N W. induction (blocks st) as [|x l IH]; [intros []|]. simpl in N'. inversion N'; subst.
    intros [->|H] [->|H'] E; auto.
    - exfalso. apply H1. rewrite E. apply in_map. exact H'.
    - exfalso. apply H1. rewrite <- E. apply in_map. exact H.
  Qed.

  Lemma block_not_huge : forall st b m, wf st -> In b (blocks st) -> ~ In (b_id b, m) (huge st).
  Proof.
    intros st b m W H H'. pose proof (wf_nodup st W) as N. revert N.
    assert (A1 : In (b_id b) (map b_id (blocks st))) by (apply in_map; exact H).
    assert (A2 : In (b_id b) (map fst (huge st))) by (change (b_id b) with (fst (b_id b, m)); apply in_map; exact H').
    revert A1 A2. generalize (map b_id (blocks st)) (map fst (huge st)) (b_id b). clear.
    induction l as [|x l IH]; intros l0 n [] A2 N.
    - subst x. simpl in N. inversion N; subst. apply H1. apply in_or_app. right. exact A2.
    - simpl in N. inversion N; subst. eapply IH; eassumption.
  Qed.

  Lemma nodup_huge : forall st i m m', wf st -> In (i, m) (huge st) -> In (i, m') (huge st) -> m = m'.
  Proof.
    intros st i m m' W. pose proof (wf_nodup st W) as N.
    assert (N' : NoDup (map fst (huge st))).
    { revert N. generalize (map b_id (blocks st)). induction l as [|x l IH]; [auto|]. simpl. intros N.
      inversion N; subst. auto. }
    clear N W. induction (huge st) as [|[x v] l IH]; [intros []|]. simpl in N'. inversion N'; subst.
    intros [E|H] [E'|H'].
    - congruence.
    - inversion E; subst. exfalso. apply H1. change i with (fst (i, m')). apply in_map. exact H'.
    - inversion E'; subst. exfalso. apply H1. change i with (fst (i, m)). apply in_map. exact H.
    - auto.
  Qed.

  Lemma holds_fun : forall st h s s', wf st -> nul_free s -> nul_free s' ->
    holds st h s -> holds st h s' -> s = s'.
  Proof.
    intros st h s s' W N N' [[b [H1 [H2 H3]]]|[m [H1 [H2 H3]]]] [[b' [G1 [G2 G3]]]|[m' [G1 [G2 G3]]]].
    - assert (b = b') by (eapply nodup_block; eauto; congruence). subst b'.
      eapply stands_fun; eauto.
    - exfalso. eapply block_not_huge; [exact W|exact H1|]. rewrite H2. exact G1.
    - exfalso. eapply block_not_huge; [exact W|exact G1|]. rewrite G2. exact H1.
    - assert (m = m') by (eapply nodup_huge; eauto). subst m m'. apply app_inj_tail in H. tauto.
  Qed.

  Definition apart (h : handle) (s : str) (h' : handle) (s' : str) : Prop :=
    fst h <> fst h' \/ snd h + length s < snd h' \/ snd h' + length s' < snd h.

  (** A freshly written region is behind everything in its block. *)
  Definition fresh (st : sc) (h : handle) : Prop :=
    (forall b, In b (blocks st) -> b_id b = fst h -> b_end b <= snd h) /\
    (forall m, ~ In (fst h, m) (huge st)).

  Lemma fresh_apart : forall st h s h' s', fresh st h -> holds st h' s' -> apart h s h' s'.
  Proof.
    intros st h s h' s' [F1 F2] [[b [H1 [H2 [H3 _]]]]|[m [H1 _]]].
    - unfold apart. destruct (Nat.eq_dec (fst h) (fst h')) as [E|E]; [|left; exact E].
      right. right. assert (b_end b <= snd h) by (apply F1; congruence). lia.
    - left. intros E. apply (F2 m). rewrite E. exact H1.
  Qed.

  Lemma u16_small : forall n, n <= umax -> u16 umax n = n.
  Proof. intros n H. unfold u16. apply Nat.mod_small. lia. Qed.
  Lemma u16_sub : forall a l, l <= a -> a <= umax -> u16 umax (a + S umax - l) = a - l.
  Proof.
    intros a l H1 H2. unfold u16. replace (a + S umax - l) with (a - l + 1 * S umax) by lia.
    rewrite Nat.mod_add by lia. apply Nat.mod_small. lia.
  Qed.

  Lemma copy_string_spec : forall b s, bwf b -> length s + 1 <= b_free b ->
    exists b', copy_string umax b s = Some (b', (b_id b, b_end b)) /\ b_id b' = b_id b /\ bwf b' /\
      b_end b <= b_end b' /\ firstn (b_end b) (b_mem b') = firstn (b_end b) (b_mem b) /\
      stands (b_mem b') (b_end b) (b_end b') s.
  Proof.
    intros b s [W1 W2] L. unfold copy_string.
    destruct (write_at_total (b_mem b) (b_end b) (s ++ [c_nul])) as [m Hm]; [rewrite app_length; simpl; lia|].
    rewrite Hm. destruct (write_at_spec _ _ _ _ Hm) as [M1 [M2 [[z M3] M4]]].
    rewrite (u16_small (length s + 1)) by lia. rewrite u16_small by lia. rewrite u16_sub by lia.
    eexists. split; [reflexivity|]. cbn [b_id b_end b_free b_mem]. split; [reflexivity|].
    split; [unfold bwf; cbn [b_id b_end b_free b_mem]; lia|]. split; [lia|]. split; [exact M2|].
    split; [lia|]. exists z. rewrite M3, <- app_assoc. reflexivity.
  Qed.

  Lemma first_fit_spec : forall sz l pre b post, first_fit sz l = Some (pre, b, post) ->
    l = pre ++ b :: post /\ sz < b_free b.
  Proof.
    intros sz. induction l as [|x l IH]; intros pre b post H; [discriminate|]. simpl in H.
    destruct (Nat.ltb_spec sz (b_free x)).
    - inversion H; subst. split; [reflexivity|assumption].
    - destruct (first_fit sz l) as [[[p y] q]|]; [|discriminate]. inversion H; subst.
      destruct (IH _ _ _ eq_refl) as [-> I2]. split; [reflexivity|exact I2].
  Qed.

  (** Replacing a block by its successor and moving blocks around. *)
  Lemma step_wf : forall st st' b0 b, wf st ->
    (exists rest, Permutation (blocks st') (b :: rest) /\
       ((Permutation (blocks st) (b0 :: rest) /\ nid st' = nid st) \/
        (Permutation (blocks st) rest /\ b_id b0 = nid st /\ nid st' = S (nid st)))) ->
    huge st' = huge st -> b_id b = b_id b0 -> bwf b ->
    b_end b0 <= b_end b -> firstn (b_end b0) (b_mem b) = firstn (b_end b0) (b_mem b0) ->
    wf st' /\ ext st st'.
  Proof.
    intros st st' b0 b W [rest [P Q]] Hh Hid Hb He Hf.
    assert (Pm : Permutation (map b_id (blocks st') ++ map fst (huge st'))
                             ((b_id b0 :: map b_id rest) ++ map fst (huge st))).
    { rewrite Hh. apply Permutation_app_tail. rewrite <- Hid. apply (Permutation_map b_id P). }
    split; [constructor|split].
    - eapply Permutation_NoDup; [apply Permutation_sym; exact Pm|].
      destruct Q as [[Q _]|[Q [Qi _]]].
      + eapply Permutation_NoDup; [|exact (wf_nodup st W)]. apply Permutation_app_tail. apply (Permutation_map b_id Q).
      + simpl. constructor.
        * rewrite Qi. intros H. assert (nid st < nid st); [|lia]. apply (wf_lt st W).
          apply in_app_iff in H. apply in_or_app. destruct H as [H|H]; [left|right; exact H].
          eapply Permutation_in; [apply Permutation_sym, (Permutation_map b_id Q)|exact H].
        * eapply Permutation_NoDup; [|exact (wf_nodup st W)]. apply Permutation_app_tail. apply (Permutation_map b_id Q).
    - intros i Hi. apply (Permutation_in _ Pm) in Hi. destruct Q as [[Q Qn]|[Q [Qi Qn]]]; rewrite Qn.
      + apply (wf_lt st W). eapply Permutation_in; [|exact Hi]. apply Permutation_app_tail.
        apply Permutation_sym. apply (Permutation_map b_id Q).
      + destruct Hi as [<-|Hi]; [lia|]. assert (i < nid st); [|lia]. apply (wf_lt st W).
        eapply Permutation_in; [|exact Hi]. apply Permutation_app_tail.
        apply Permutation_sym. apply (Permutation_map b_id Q).
    - intros x Hx. apply (Permutation_in _ P) in Hx. destruct Hx as [<-|Hx]; [exact Hb|].
      apply (wf_b st W). destruct Q as [[Q _]|[Q _]]; (eapply Permutation_in; [apply Permutation_sym; exact Q|]);
        [right|]; exact Hx.
    - intros x Hx. destruct Q as [[Q _]|[Q _]]; apply (Permutation_in _ Q) in Hx.
      + destruct Hx as [<-|Hx].
        * exists b. split; [eapply Permutation_in; [apply Permutation_sym; exact P|left; reflexivity]|]. auto.
        * exists x. split; [eapply Permutation_in; [apply Permutation_sym; exact P|right; exact Hx]|]. auto.
      + exists x. split; [eapply Permutation_in; [apply Permutation_sym; exact P|right; exact Hx]|]. auto.
    - rewrite Hh. intros x Hx. exact Hx.
  Qed.

  Lemma new_block_fresh : forall st, wf st -> fresh st (nid st, 0).
  Proof.
    intros st W. split; cbn [fst snd].
    - intros b Hb E. exfalso. assert (nid st < nid st); [|lia]. apply (wf_lt st W). apply in_or_app. left.
      rewrite <- E. apply in_map. exact Hb.
    - intros m Hm. assert (nid st < nid st); [|lia]. apply (wf_lt st W). apply in_or_app. right.
      change (nid st) with (fst (nid st, m)). apply in_map. exact Hm.
  Qed.

  Lemma add_string_spec : forall st s, wf st -> length s + 1 <= umax ->
    exists st' h, add_string umax bufsize st s = Some (st', h) /\ wf st' /\ ext st st' /\
      holds st' h s /\ fresh st h /\ tbl st' = tbl st.
  Proof.
    intros st s W L. unfold add_string. rewrite (u16_small (length s + 1)) by exact L.
    destruct (Nat.ltb_spec bufsize (length s + 1)) as [Lb|Lb].
    - destruct (copy_string_spec (new_cache (nid st) (length s + 1)) s) as [b [C1 [C2 [C3 [C4 [C5 C6]]]]]].
      { unfold bwf, new_cache. cbn [b_id b_end b_free b_mem]. rewrite repeat_length. lia. }
      { cbn [new_cache b_free]. lia. }
      rewrite C1. eexists _, _. split; [reflexivity|].
      match goal with |- wf ?X /\ _ => set (st' := X) end.
      destruct (step_wf st st' (new_cache (nid st) (length s + 1)) b W) as [S1 S2]; auto.
      { exists (blocks st). split.
        - unfold blocks, st'. cbn [avail full]. apply Permutation_sym, Permutation_middle.
        - right. repeat split; reflexivity. }
      split; [exact S1|]. split; [exact S2|]. split; [|split; [apply new_block_fresh; exact W|reflexivity]].
      left. exists b. split; [unfold blocks, st'; cbn [avail full]; apply in_or_app; right; left; reflexivity|].
      split; [exact C2|exact C6].
    - set (X := match first_fit (length s + 1) (avail st) with
                | Some (pre, b, post) => (pre, b, post, nid st)
                | None => ([], new_cache (nid st) bufsize, avail st, S (nid st)) end).
      assert (HX : exists pre b0 post id, X = (pre, b0, post, id) /\ bwf b0 /\ length s + 1 <= b_free b0 /\
        ((avail st = pre ++ b0 :: post /\ id = nid st) \/
         (avail st = pre ++ post /\ b_id b0 = nid st /\ b_end b0 = 0 /\ id = S (nid st)))).
      { unfold X. destruct (first_fit (length s + 1) (avail st)) as [[[pre b] post]|] eqn:E.
        - destruct (first_fit_spec _ _ _ _ _ E) as [E1 E2]. exists pre, b, post, (nid st).
          split; [reflexivity|]. split.
          + apply (wf_b st W). unfold blocks. rewrite E1. apply in_or_app. left. apply in_or_app. right. left. reflexivity.
          + split; [lia|]. left. auto.
        - exists [], (new_cache (nid st) bufsize), (avail st), (S (nid st)). split; [reflexivity|]. split.
          + unfold bwf, new_cache. cbn [b_id b_end b_free b_mem]. rewrite repeat_length. lia.
          + split; [cbn [new_cache b_free]; lia|]. right. repeat split; reflexivity. }
      destruct HX as [pre [b0 [post [id [-> [Hb0 [Lf Hcase]]]]]]].
      destruct (copy_string_spec b0 s Hb0 Lf) as [b [C1 [C2 [C3 [C4 [C5 C6]]]]]]. rewrite C1.
      assert (FR : fresh st (b_id b0, b_end b0)).
      { destruct Hcase as [[A1 A2]|[A1 [A2 [A3 A4]]]].
        - assert (Hin : In b0 (blocks st)).
          { unfold blocks. rewrite A1. apply in_or_app. left. apply in_or_app. right. left. reflexivity. }
          split; cbn [fst snd].
          + intros x Hx E. assert (x = b0) by (eapply nodup_block; eauto). subst x. lia.
          + intros m. eapply block_not_huge; eauto.
        - rewrite A2, A3. apply new_block_fresh. exact W. }
      assert (Fin : forall st', (exists l, Permutation (blocks st') (b :: l) /\ Permutation l (pre ++ post ++ full st)) ->
        huge st' = huge st -> nid st' = id -> tbl st' = tbl st ->
        wf st' /\ ext st st' /\ holds st' (b_id b0, b_end b0) s /\ fresh st (b_id b0, b_end b0) /\ tbl st' = tbl st).
      { intros st' [l [P1 P2]] E1 E2 E3.
        destruct (step_wf st st' b0 b W) as [S1 S2]; auto.
        { exists l. split; [exact P1|]. destruct Hcase as [[A1 A2]|[A1 [A2 [A3 A4]]]].
          - left. split; [|congruence]. unfold blocks. rewrite A1, <- app_assoc. simpl.
            eapply perm_trans; [apply Permutation_sym, Permutation_middle|]. constructor. apply Permutation_sym. exact P2.
          - right. split; [|split; [exact A2|congruence]]. unfold blocks. rewrite A1, <- app_assoc.
            apply Permutation_sym. exact P2. }
        split; [exact S1|]. split; [exact S2|]. split; [|split; assumption].
        left. exists b. split; [eapply Permutation_in; [apply Permutation_sym; exact P1|left; reflexivity]|].
        split; [exact C2|exact C6]. }
      destruct ((20 <? S (total_strings st)) && _).
      + eexists _, _. split; [reflexivity|]. apply Fin; try reflexivity. exists (pre ++ post ++ full st).
        split; [|reflexivity]. unfold blocks. cbn [avail full]. rewrite <- app_assoc.
        apply Permutation_sym. rewrite !app_assoc. apply Permutation_middle.
      + eexists _, _. split; [reflexivity|]. apply Fin; try reflexivity. exists (pre ++ post ++ full st).
        split; [|reflexivity]. unfold blocks. cbn [avail full]. rewrite <- app_assoc. simpl.
        apply Permutation_sym. apply Permutation_middle.
  Qed.

  (** ** The whole cache *)
  Local Notation T := (reached item item_same (ih1 h1) (ih2 h2) 8000).

  Lemma item_client : client_ok item item_same (ih1 h1) (ih2 h2).
  Proof.
    unfold client_ok, item_same, ih1, ih2. repeat split.
    - intros a. apply str_eqb_refl.
    - intros a b. destruct (str_eqb (fst a) (fst b)) eqn:E.
      + apply str_eqb_eq in E. rewrite E, str_eqb_refl. reflexivity.
      + apply str_eqb_neq in E. symmetry. apply str_eqb_neq. congruence.
    - intros a b c H1 H2. apply str_eqb_eq in H1, H2. apply str_eqb_eq. congruence.
    - intros a b H. apply str_eqb_eq in H. congruence.
    - intros a b H. apply str_eqb_eq in H. congruence.
  Qed.

  Definition small (s : str) : Prop := length s < umax.

  Record Inv (st : sc) (hist : list (handle * str)) : Prop := {
    iv_wf : wf st;
    iv_holds : forall h s, In (h, s) hist -> holds st h s;
    iv_nul : forall h s, In (h, s) hist -> nul_free s;
    iv_apart : forall h s h' s', In (h, s) hist -> In (h', s') hist -> h <> h' -> apart h s h' s';
    iv_tbl : exists m, T (tbl st) m /\
      (forall s h, In (s, h) m -> In (h, s) hist) /\
      (forall h s, In (h, s) hist -> small s -> In (s, h) m) /\
      (forall s h h', In (s, h) m -> In (s, h') m -> h = h') }.

  Lemma init_inv : Inv strcache_init [].
  Proof.
    constructor; try (intros; contradiction).
    - constructor; simpl; try (intros; contradiction). constructor.
    - exists []. split; [apply reached_init|]. repeat split; intros; contradiction.
  Qed.

  Lemma HH8000 : (8 <= 8000 < 2 ^ 63)%N. Proof. split; reflexivity || discriminate. Qed.

  Lemma m_find_none : forall m s h0, m_find item item_same m (s, h0) = None -> forall h, ~ In (s, h) m.
  Proof.
    intros m s h0 H h Hi. unfold m_find in H. pose proof (find_none _ _ H _ Hi) as E.
    unfold item_same in E. simpl in E. rewrite str_eqb_refl in E. discriminate.
  Qed.
  Lemma m_find_some : forall m s h0 x, m_find item item_same m (s, h0) = Some x -> In x m /\ fst x = s.
  Proof.
    intros m s h0 x H. unfold m_find in H. apply find_some in H. destruct H as [H1 H2].
    unfold item_same in H2. simpl in H2. apply str_eqb_eq in H2. auto.
  Qed.
  Lemma m_remove_absent : forall m s h0, (forall h, ~ In (s, h) m) -> m_remove item item_same m (s, h0) = m.
  Proof.
    intros m s h0. unfold m_remove. induction m as [|[t h] m IH]; intros H; [reflexivity|]. cbn [filter].
    unfold item_same at 1. cbn [fst]. destruct (str_eqb s t) eqn:E.
    - apply str_eqb_eq in E. subst t. exfalso. apply (H h). left. reflexivity.
    - cbn [negb]. f_equal. apply IH. intros h' Hh. apply (H h'). right. exact Hh.
  Qed.

  Lemma add_inv : forall st hist s, Inv st hist -> nul_free s -> 0 < umax ->
    exists st' h, strcache_add umax bufsize h1 h2 st s = Some (st', h) /\ Inv st' ((h, s) :: hist).
  Proof.
    intros st hist s I N U. unfold strcache_add. pose proof (iv_wf _ _ I) as W.
    destruct (iv_tbl _ _ I) as [m [TR [T1 [T2 T3]]]].
    destruct (Nat.ltb_spec (umax - 1) (length s)) as [L|L].
    - (* huge *)
      eexists _, _. split; [reflexivity|]. set (st' := mksc _ _ _ _ _ _ _).
      assert (EX : ext st st').
      { split; [intros b Hb; exists b; auto|]. intros x Hx. right. exact Hx. }
      assert (FR := new_block_fresh st W).
      assert (W' : wf st').
      { constructor; unfold st'; cbn [blocks avail full huge nid].
        - apply NoDup_Add with (a := nid st) (l := map b_id (blocks st) ++ map fst (huge st)).
          + unfold blocks. cbn [map fst]. apply Add_app.
          + split; [exact (wf_nodup st W)|]. intros Hi. pose proof (wf_lt st W _ Hi). lia.
        - intros i Hi. cbn [map fst] in Hi. apply in_app_iff in Hi.
          assert (i = nid st \/ i < nid st); [|lia].
          destruct Hi as [Hi|[Hi|Hi]]; [right|left; auto|right]; apply (wf_lt st W); apply in_or_app; auto.
        - exact (wf_b st W). }
      assert (HN : holds st' (nid st, 0) s).
      { right. exists (s ++ [c_nul]). split; [left; reflexivity|]. auto. }
      constructor.
      + exact W'.
      + intros h t [E|Hi]; [injection E as <- <-; exact HN|].
        apply (holds_ext st _ _ _ W); [assumption|]. apply (iv_holds _ _ I). exact Hi.
      + intros h t [E|Hi]; [injection E as <- <-; exact N|]. eapply (iv_nul _ _ I); eauto.
      + intros h t h' t' [E|Hi] [E'|Hi'] Hne.
        * congruence.
        * injection E as <- <-. eapply fresh_apart; [exact FR|]. apply (iv_holds _ _ I). exact Hi'.
        * injection E' as <- <-. pose proof (fresh_apart st (nid st, 0) s h t FR (iv_holds _ _ I _ _ Hi)) as A.
          unfold apart in *. intuition.
        * eapply (iv_apart _ _ I); eauto.
      + exists m. split; [exact TR|]. split; [intros t h Hi; right; apply T1; exact Hi|]. split; [|exact T3].
        intros h t [E|Hi] Sm; [injection E as <- <-; unfold small in Sm; lia|]. apply T2; assumption.
    - rewrite (reached_find _ _ _ _ item_client _ HH8000 _ _ (s, (0, 0)) TR).
      destruct (m_find item item_same m (s, (0, 0))) as [[t h]|] eqn:F.
      + (* already there *)
        destruct (m_find_some _ _ _ _ F) as [F1 F2]. simpl in F2. subst t.
        eexists _, _. split; [reflexivity|]. pose proof (T1 _ _ F1) as Hh.
        assert (J : forall a b, In (a, b) ((h, s) :: hist) -> In (a, b) hist).
        { intros a b [E|Hi]; [injection E as <- <-; exact Hh|exact Hi]. }
        constructor.
        * exact W.
        * intros a b Hi. apply (iv_holds _ _ I), J, Hi.
        * intros a b Hi. eapply (iv_nul _ _ I), J, Hi.
        * intros a b a' b' Hi Hi'. apply (iv_apart _ _ I); apply J; assumption.
        * exists m. split; [exact TR|]. split; [intros t x Hi; right; apply T1; exact Hi|]. split; [|exact T3].
          intros a b Hi Sm. apply T2; [apply J; exact Hi|exact Sm].
      + (* new *)
        pose proof (m_find_none _ _ _ F) as Ab.
        destruct (add_string_spec st s W) as [st' [h [A1 [A2 [A3 [A4 [A5 A6]]]]]]]; [lia|].
        rewrite A1, A6.
        destruct (reached_insert _ _ _ _ item_client _ HH8000 _ _ (s, h) TR) as [t' [B1 B2]].
        rewrite B1. eexists _, _. split; [reflexivity|].
        rewrite m_remove_absent in B2 by exact Ab.
        set (st2 := mksc _ _ _ _ _ _ _).
        assert (W2 : wf st2) by (destruct A2; constructor; assumption).
        assert (X2 : ext st st2) by exact A3.
        assert (H2 : holds st2 h s) by exact A4.
        constructor.
        * exact W2.
        * intros a b [E|Hi]; [injection E as <- <-; exact H2|].
          apply (holds_ext st _ _ _ W); [assumption|]. apply (iv_holds _ _ I). exact Hi.
        * intros a b [E|Hi]; [injection E as <- <-; exact N|]. eapply (iv_nul _ _ I); eauto.
        * intros a b a' b' [E|Hi] [E'|Hi'] Hne.
          -- congruence.
          -- injection E as <- <-. eapply fresh_apart; [exact A5|]. apply (iv_holds _ _ I). exact Hi'.
          -- injection E' as <- <-. pose proof (fresh_apart st h s a b A5 (iv_holds _ _ I _ _ Hi)) as A.
             unfold apart in *. intuition.
          -- eapply (iv_apart _ _ I); eauto.
        * exists ((s, h) :: m). split; [exact B2|]. split; [|split].
          -- intros t x [E|Hi]; [injection E as <- <-; left; reflexivity|]. right. apply T1. exact Hi.
          -- intros a b [E|Hi] Sm; [injection E as <- <-; left; reflexivity|]. right. apply T2; assumption.
          -- intros t x x' [E|Hi] [E'|Hi'].
             ++ congruence.
             ++ injection E as <- <-. exfalso. exact (Ab _ Hi').
             ++ injection E' as <- <-. exfalso. exact (Ab _ Hi).
             ++ eapply T3; eauto.
  Qed.

  Lemma run_inv : forall strs st hist, Inv st hist -> 0 < umax -> (forall s, In s strs -> nul_free s) ->
    exists st' hs, sc_run umax bufsize h1 h2 st strs = Some (st', hs) /\ length hs = length strs /\
      exists hist', Inv st' hist' /\ incl (combine hs strs) hist' /\ incl hist hist'.
  Proof.
    induction strs as [|s strs IH]; intros st hist I U N.
    - exists st, []. split; [reflexivity|]. split; [reflexivity|]. exists hist. split; [exact I|].
      split; [intros x []|apply incl_refl].
    - destruct (add_inv st hist s I (N s (or_introl eq_refl)) U) as [st1 [h [A1 A2]]].
      destruct (IH st1 _ A2 U) as [st' [hs [B1 [B2 [hist' [B3 [B4 B5]]]]]]]; [intros t Ht; apply N; right; exact Ht|].
      exists st', (h :: hs). cbn [sc_run]. rewrite A1, B1. split; [reflexivity|]. split; [simpl; congruence|].
      exists hist'. split; [exact B3|]. split.
      + intros x [<-|Hx]; [apply B5; left; reflexivity|apply B4; exact Hx].
      + intros x Hx. apply B5. right. exact Hx.
  Qed.

  Lemma assoc_in : forall B (l : list (nat * B)) k v, NoDup (map fst l) -> In (k, v) l -> assoc k l = Some v.
  Proof.
    intros B. induction l as [|[x w] l IH]; [intros k v _ []|]. intros k v Nd [E|Hi]; simpl in *.
    - inversion E; subst. rewrite Nat.eqb_refl. reflexivity.
    - inversion Nd; subst. destruct (Nat.eqb_spec k x) as [->|]; [|apply IH; assumption].
      exfalso. apply H1. change x with (fst (x, v)). apply in_map. exact Hi.
  Qed.

  Lemma memory_ids : forall st, map fst (memory st) = map b_id (blocks st) ++ map fst (huge st).
  Proof. intros st. unfold memory. rewrite map_app, map_map. reflexivity. Qed.

  Lemma holds_text : forall st h s, wf st -> nul_free s -> holds st h s -> text_at st h = Some s.
  Proof.
    intros st h s W N H. unfold text_at.
    assert (Nd : NoDup (map fst (memory st))) by (rewrite memory_ids; exact (wf_nodup st W)).
    destruct H as [[b [H1 [H2 [_ [z H3]]]]]|[m [H1 [H2 H3]]]].
    - rewrite (assoc_in _ _ (fst h) (b_mem b) Nd).
      + rewrite H3. apply until_nul_app. exact N.
      + unfold memory. apply in_or_app. left. rewrite <- H2.
        apply (in_map (fun b => (b_id b, b_mem b))). exact H1.
    - rewrite (assoc_in _ _ (fst h) m Nd).
      + rewrite H2, H3. cbn [skipn]. apply until_nul_app. exact N.
      + unfold memory. apply in_or_app. right. exact H1.
  Qed.

  Lemma holds_cached : forall st h s, holds st h s -> strcache_iscached st h = true.
  Proof.
    intros st h s H. unfold strcache_iscached. rewrite <- existsb_app. apply orb_true_iff.
    destruct H as [[b [H1 [H2 [H3 _]]]]|[m [H1 [H2 H3]]]].
    - left. apply existsb_exists. exists b. split; [exact H1|]. unfold in_block.
      rewrite <- H2, Nat.eqb_refl. apply Nat.ltb_lt. lia.
    - right. apply existsb_exists. exists (fst h, m). split; [exact H1|]. cbn [fst].
      rewrite Nat.eqb_refl, H2. reflexivity.
  Qed.

  Lemma nth_combine_in : forall (hs : list handle) (strs : list str) i h s,
    nth_error hs i = Some h -> nth_error strs i = Some s -> In (h, s) (combine hs strs).
  Proof.
    induction hs as [|x hs IH]; intros [|y strs] [|i] h s H1 H2; simpl in *; try discriminate.
    - left. congruence.
    - right. eapply IH; eauto.
  Qed.
End SC.
