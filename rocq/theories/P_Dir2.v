(** All calls keep the invariant; how many directories are open. *)
From Coq Require Import Lia.
From Verif Require Import Base M_Dir S_Dir P_Dir.
Open Scope list_scope.
Open Scope nat_scope.

Lemma files_listed vs d : files vs d = listed vs (place_of vs d).
Proof. unfold files, place_of. destruct (node vs d); reflexivity. Qed.
Lemma place_old vs w d e : In e (map snd vs) -> place_of (vs ++ [(w, d)]) e = place_of vs e.
Proof. intros H. unfold place_of. rewrite node_old; auto. Qed.
Lemma files_old vs w d e : In e (map snd vs) -> files (vs ++ [(w, d)]) e = files vs e.
Proof. intros H. unfold files. rewrite node_old by auto. destruct (node vs e) as [i|] eqn:N; auto. apply listing_old. exists e. auto. Qed.
Lemma visits_snoc es w k : visits (es ++ [(w, k)]) = visits es ++ [(w, dir_of k)].
Proof. unfold visits. rewrite map_app. reflexivity. Qed.
Lemma visits_in es w k : In (w, k) es -> In (dir_of k) (map snd (visits es)).
Proof. intros H. unfold visits. rewrite map_map. apply in_map_iff. exists (w, k). auto. Qed.
Lemma present_old vs w d e f : In e (map snd vs) -> (present (vs ++ [(w, d)]) e f <-> present vs e f).
Proof. intros H. unfold present. rewrite files_old by auto. tauto. Qed.

Lemma careful_app es x : careful (es ++ [x]) -> careful es.
Proof.
  intros C w d f E. destruct x as [w0 k0]. pose proof (C w d f (in_or_app _ _ _ (or_introl E))) as B.
  assert (I : In d (map snd (visits es))) by (apply (visits_in es w (Mark d f)); exact E).
  rewrite visits_snoc in B. destruct (str_eqb f []); [rewrite files_old in B; auto | rewrite present_old in B; auto].
Qed.

Definition mks (es : list (world * call)) : marks := fun p f => exists w d, In (w, Mark d f) es /\ place_of (visits es) d = p.
Lemma mks_snoc es w k p f : mks (es ++ [(w, k)]) p f <-> mks es p f \/ exists d, k = Mark d f /\ place_of (visits es ++ [(w, d)]) d = p.
Proof.
  unfold mks. rewrite visits_snoc. split.
  - intros (w0 & d & I & P). apply in_app_or in I. destruct I as [I | [I | []]].
    + left. exists w0, d. split; auto. rewrite place_old in P; auto. apply (visits_in _ _ _ I).
    + right. injection I as <- ->. exists d. auto.
  - intros [(w0 & d & I & P) | (d & -> & P)].
    + exists w0, d. split; [apply in_or_app; auto|]. rewrite place_old; auto. apply (visits_in _ _ _ I).
    + exists w, d. split; auto. apply in_or_app. right. left. reflexivity.
Qed.

Lemma inv_ext vs (mk mk' : marks) st : (forall p f, mk p f <-> mk' p f) -> inv vs mk st -> inv vs mk' st.
Proof.
  intros E [A B C D F G]. constructor; auto.
  - intros d H. destruct (C d H) as ((f & M) & X). split; auto. exists f. apply E, M.
  - intros p f M. apply (D p f), E, M.
  - intros p c H. destruct (F p c H) as [F1 F2 F3]. constructor; auto.
    + intros f. rewrite F2. apply E.
    + destruct (listed vs p); auto. destruct F3 as (X & Y & Z). split; auto. split; auto. rewrite Z. split; intros (f & M); exists f; apply E, M.
  - intros p f l M. apply (G p f l), E, M.
Qed.

Lemma fine_mark vs (mk : marks) q c f : fine vs mk q c -> (forall l, listed vs q = Some l -> ~ In f l) ->
  fine vs (fun p g => mk p g \/ (p = q /\ g = f)) q (mkcontents true (insert (c_files c) f true) (c_stream c)).
Proof.
  intros [A B C] N. constructor; cbn.
  - apply insert_nodup, A.
  - intros g. rewrite find_insert. destruct (str_eqb f g) eqn:E.
    + apply str_eqb_eq in E. subst. split; auto.
    + apply str_eqb_neq in E. rewrite B. split; auto. intros [M | [_ M]]; auto. congruence.
  - destruct (listed vs q) as [l|].
    + destruct C as (T & r & rest & -> & S & R). split; auto. exists r, rest. split; auto. split; auto. intros g. rewrite find_insert. destruct (str_eqb f g) eqn:E; auto.
      apply str_eqb_eq in E. subst. split; [discriminate|]. intros I. destruct (N _ eq_refl). apply in_or_app. auto.
    + destruct C as (S & R & T). split; auto. split.
      * intros g. rewrite find_insert. destruct (str_eqb f g); [discriminate | auto].
      * split; auto. intros _. exists f. auto.
Qed.
Lemma fine_other vs (mk : marks) p q c f : fine vs mk p c -> p <> q -> fine vs (fun p g => mk p g \/ (p = q /\ g = f)) p c.
Proof.
  intros [A B C] N. constructor; auto.
  - intros g. rewrite B. intuition congruence.
  - destruct (listed vs p); auto. destruct C as (S & R & T). split; auto. split; auto. rewrite T. split; intros (g & M); exists g; intuition congruence.
Qed.

Lemma mark_inv vs (mk : marks) st w d f : inv vs mk st -> let vs' := vs ++ [(w, d)] in
  (forall l, files vs' d = Some l -> ~ In f l) ->
  inv vs' (fun p g => mk p g \/ (p = place_of vs' d /\ g = f)) (mark w st d f).
Proof.
  intros I vs' N. unfold mark. destruct (find_directory w st d) as [st1 p] eqn:FD. apply (find_inv vs mk) in FD; auto. destruct FD as (I' & D & PS & PN). fold vs' in I', PS, PN.
  rewrite files_listed in N. destruct I' as [I1 I2 I3 I4 I5 I6]. destruct p as [q|].
  - destruct (PS q eq_refl) as [C E]. destruct (s_contents st1 q) as [c|] eqn:CC; [|congruence]. rewrite <- E in *.
    set (c' := mkcontents true (insert (c_files c) f true) (c_stream c)).
    assert (SAME : forall r n, s_contents (set_contents st1 q c' n) r = None <-> s_contents st1 r = None).
    { intros r n. cbn. destruct (place_eqb r q) eqn:X; [|tauto]. apply place_eqb_eq in X. subst r. split; congruence. }
    constructor.
    + intros e. cbn [set_contents s_dirs s_contents]. rewrite I1. destruct (looked vs' e); auto. destruct (w_stat w0 e); auto.
      destruct (place_eqb (Own e) q) eqn:X; auto. apply place_eqb_eq in X. subst q. rewrite X, CC. reflexivity.
    + intros i. rewrite SAME. apply I2.
    + intros e X. rewrite SAME in X. destruct (I3 e X) as ((g & M) & Y). split; eauto.
    + intros r g [M | [-> _]]; rewrite SAME; [apply (I4 _ _ M) | congruence].
    + intros r c0 X. cbn in X. destruct (place_eqb r q) eqn:Y.
      * apply place_eqb_eq in Y. subst r. injection X as <-. apply fine_mark; auto.
      * apply fine_other; auto. intros ->. rewrite place_eqb_refl in Y. discriminate.
    + intros r g l [M | [-> ->]] L; [apply (I6 _ _ _ M L) | apply N, L].
  - destruct (PN eq_refl) as [ND OW]. assert (PO : place_of vs' d = Own d) by (unfold place_of; rewrite ND; reflexivity). rewrite PO, OW in *.
    set (c' := mkcontents true (insert (c_files (mkcontents false [] None)) f true) (c_stream (mkcontents false [] None))).
    assert (IN : In d (map snd vs')). { unfold vs'. rewrite map_app. apply in_or_app. right. left. reflexivity. }
    constructor.
    + intros e. cbn [set_contents set_dir s_dirs s_contents place_eqb]. rewrite I1. destruct (str_eqb e d) eqn:X; auto. apply str_eqb_eq in X. subst e.
      destruct (looked vs' d) as [w0|] eqn:L; [|apply looked_in in IN; destruct IN; congruence]. unfold node in ND. rewrite L in ND. rewrite ND. reflexivity.
    + intros i. cbn. apply I2.
    + intros e X. cbn in X. destruct (str_eqb e d) eqn:Y.
      * apply str_eqb_eq in Y. subst e. split; eauto.
      * destruct (I3 e X) as ((g & M) & Z). split; eauto.
    + intros r g [M | [-> _]]; cbn [set_contents set_dir s_contents]; [destruct (place_eqb r (Own d)); [discriminate | apply (I4 _ _ M)] | rewrite place_eqb_refl; discriminate].
    + intros r c0 X. cbn [set_contents set_dir s_contents] in X. destruct (place_eqb r (Own d)) eqn:Y.
      * apply place_eqb_eq in Y. subst r. injection X as <-. apply fine_mark.
        -- constructor; cbn; [constructor| |].
           ++ intros g. split; [discriminate|]. intros M. destruct (I4 _ _ M). auto.
           ++ split; auto. split; [discriminate|]. split; [discriminate|]. intros (g & M). destruct (I4 _ _ M). auto.
        -- discriminate.
      * apply fine_other; [apply I5; auto|]. intros ->. rewrite place_eqb_refl in Y. discriminate.
    + intros r g l [M | [-> ->]] L; [apply (I6 _ _ _ M L) | discriminate].
Qed.

Lemma calls_snoc st es x : calls st (es ++ [x]) = fst (do_call (fst x) (calls st es) (snd x)).
Proof. unfold calls. rewrite fold_left_app. reflexivity. Qed.

Lemma exists_inv vs (mk : marks) st w d f st' b : inv vs mk st -> dir_file_exists_p w st d f = (st', b) ->
  inv (vs ++ [(w, d)]) mk st' /\ (f <> [] -> b = true <-> present (vs ++ [(w, d)]) d f) /\
  (f = [] -> b = true <-> files (vs ++ [(w, d)]) d <> None \/ exists g, mk (place_of (vs ++ [(w, d)]) d) g).
Proof.
  intros I H. unfold dir_file_exists_p in H. destruct (find_directory w st d) as [st1 p] eqn:FD. apply (find_inv vs mk) in FD; auto. destruct FD as (I' & D & PS & PN).
  destruct p as [q|].
  - destruct (PS q eq_refl) as [C E]. destruct (s_contents st1 q) as [c|] eqn:CC; [|congruence]. destruct (contents_exists c (s_open st1) (Some f)) as [[c' n] b'] eqn:CE. injection H as <- <-.
    assert (F : fine (vs ++ [(w, d)]) mk q c) by (apply (i_fine _ _ _ I'); auto).
    apply (contents_exists_fine (vs ++ [(w, d)]) mk q) in CE; [|intros g l M L; apply (i_apart _ _ _ I' q g l M L) | exact F]. destruct CE as (A1 & A2 & A3 & A4 & A5).
    split; [apply inv_set; auto; congruence|]. split.
    + intros NE. rewrite (A3 f eq_refl NE). unfold present. rewrite files_listed, <- E. tauto.
    + intros ->. rewrite (A4 eq_refl), files_listed, <- E. destruct F as [_ _ FL]. destruct (listed (vs ++ [(w, d)]) q).
      * destruct FL as (T & _). rewrite T. split; auto. intros _. left. discriminate.
      * destruct FL as (_ & _ & T). rewrite T. split; auto. intros [X|X]; [congruence | auto].
  - injection H as <- <-. split; auto. destruct (PN eq_refl) as [ND OW]. split.
    + intros _. split; [discriminate|]. intros (l & F & _). unfold files in F. rewrite ND in F. discriminate.
    + intros _. split; [discriminate|]. unfold files, place_of. rewrite ND. intros [X | (g & M)]; [congruence|]. destruct (i_marks _ _ _ I' _ _ M). auto.
Qed.

Lemma glob_inv vs (mk : marks) st w d st' r : inv vs mk st -> list_dir w st d = (st', r) ->
  inv (vs ++ [(w, d)]) mk st' /\
  match files (vs ++ [(w, d)]) d with
  | Some l => exists names, r = Some names /\ NoDup names /\ forall f, In f names <-> In f l
  | None => r = None \/ (r = Some [] /\ exists g, mk (place_of (vs ++ [(w, d)]) d) g)
  end.
Proof.
  intros I H. unfold list_dir in H. destruct (find_directory w st d) as [st1 p] eqn:FD. apply (find_inv vs mk) in FD; auto. destruct FD as (I' & D & PS & PN).
  destruct p as [q|].
  - destruct (PS q eq_refl) as [C E]. destruct (s_contents st1 q) as [c|] eqn:CC; [|congruence].
    assert (F : fine (vs ++ [(w, d)]) mk q c) by (apply (i_fine _ _ _ I'); auto). rewrite files_listed, <- E. destruct (c_table c) eqn:T.
    + destruct (contents_exists c (s_open st1) None) as [[c' n] b'] eqn:CE. injection H as <- <-.
      apply (contents_exists_fine (vs ++ [(w, d)]) mk q) in CE; [|intros g l M L; apply (i_apart _ _ _ I' q g l M L) | exact F]. destruct CE as (A1 & A2 & A3 & A4 & A5).
      split; [apply inv_set; auto; congruence|]. destruct A1 as [FN FM FL].
      assert (NAMES : forall f, In f (map fst (filter (fun x => negb (snd x)) (c_files c'))) <-> find_item (c_files c') f = Some false).
      { intros f. rewrite find_in by auto. rewrite in_map_iff. split.
        - intros ([g x] & <- & X). apply filter_In in X. destruct X as [X Y]. cbn in *. destruct x; [discriminate | auto].
        - intros X. exists (f, false). split; auto. apply filter_In. auto. }
      assert (ND : NoDup (map fst (filter (fun x => negb (snd x)) (c_files c')))).
      { clear - FN. induction (c_files c') as [| [g x] l IH]; cbn; [constructor|]. inversion FN as [| ? ? X Y]; subst. destruct x; cbn; auto. constructor; auto.
        intros Z. apply X. apply in_map_iff in Z. destruct Z as (y & <- & Z). apply filter_In in Z. apply in_map. tauto. }
      destruct (listed (vs ++ [(w, d)]) q) as [l|].
      * destruct FL as (_ & r0 & rest & -> & S & R). assert (rest = []) as ->. { destruct (A5 eq_refl) as [X|X]; [|congruence]. destruct S as [S | [_ S]]; [congruence | auto]. }
        eexists. split; [reflexivity|]. split; auto. intros f. rewrite NAMES, R, app_nil_r. tauto.
      * destruct FL as (_ & X & Y). right. split; [|apply Y; congruence]. f_equal. destruct (map fst (filter (fun x => negb (snd x)) (c_files c'))) as [| f l]; auto.
        destruct (X f). apply NAMES. left. reflexivity.
    + injection H as <- <-. split; auto. destruct F as [_ _ FL]. destruct (listed (vs ++ [(w, d)]) q); auto. destruct FL. congruence.
  - injection H as <- <-. split; auto. destruct (PN eq_refl) as [ND OW]. unfold files. rewrite ND. auto.
Qed.

Lemma calls_inv es : careful es -> inv (visits es) (mks es) (calls init es).
Proof.
  induction es as [| [w k] es IH] using rev_ind; intros C.
  - apply (inv_ext [] (fun _ _ => False)); [|apply inv_init]. intros p f. split; [tauto|]. intros (w & d & [] & _).
  - specialize (IH (careful_app _ _ C)). rewrite calls_snoc, visits_snoc. cbn [fst snd].
    assert (EXT : (forall d f, k <> Mark d f) -> forall st, inv (visits es ++ [(w, dir_of k)]) (mks es) st -> inv (visits es ++ [(w, dir_of k)]) (mks (es ++ [(w, k)])) st).
    { intros NM st. apply inv_ext. intros p f. rewrite mks_snoc. split; auto. intros [M | (d & E & _)]; auto. destruct (NM d f E). }
    destruct k as [d f | d f | d f | d]; cbn [do_call dir_of] in *.
    + destruct (dir_file_exists_p w (calls init es) d f) as [st' b] eqn:H. apply EXT; [discriminate|]. apply (exists_inv _ _ _ _ _ _ _ _ IH H).
    + apply (inv_ext (visits es ++ [(w, d)]) (fun p g => mks es p g \/ (p = place_of (visits es ++ [(w, d)]) d /\ g = f))).
      * intros p g. rewrite mks_snoc. split; intros [M|M]; auto.
        -- destruct M as [-> ->]. right. eauto.
        -- destruct M as (e & E & P). injection E as <- <-. auto.
      * apply mark_inv; auto. intros l F I. assert (N : In (w, Mark d f) (es ++ [(w, Mark d f)])) by (apply in_or_app; right; left; reflexivity). apply C in N. rewrite visits_snoc in N. cbn [dir_of] in N. destruct (str_eqb f []).
        -- congruence.
        -- apply N. exists l. auto.
    + unfold marked. destruct (find_directory w (calls init es) d) as [st1 p] eqn:FD. cbn [fst]. apply EXT; [discriminate|]. apply (find_inv _ _ _ _ _ _ _ IH FD).
    + destruct (list_dir w (calls init es) d) as [st' r] eqn:H. apply EXT; [discriminate|]. apply (glob_inv _ _ _ _ _ _ _ IH H).
Qed.

(** * How many are open *)
Definition open_at (st : state) (i : nat) : Prop := exists c s, s_contents st (Node i) = Some c /\ c_stream c = Some s.
Record counted (st : state) (L : list nat) : Prop := {
  n_nodup : NoDup L; n_len : length L = s_open st; n_in : forall i, In i L <-> open_at st i;
  n_own : forall d c, s_contents st (Own d) = Some c -> c_stream c = None; n_max : length L < max_open }.

Lemma contents_open c n f c' n' b : contents_exists c n f = (c', n', b) ->
  (c_stream c = None -> c_stream c' = None /\ n' = n) /\
  (forall s, c_stream c = Some s -> (exists s', c_stream c' = Some s' /\ n' = n) \/ (c_stream c' = None /\ n' = n - 1)).
Proof.
  intros H. unfold contents_exists in H.
  assert (G : forall r, (match c_stream c with None => (c, n, false) | Some s => match read_on (c_files c) s f with (files, Some rest, b) => (mkcontents true files (Some rest), n, b) | (files, None, b) => (mkcontents true files None, n - 1, b) end end) = r -> r = (c', n', b) ->
     (c_stream c = None -> c_stream c' = None /\ n' = n) /\ (forall s, c_stream c = Some s -> (exists s', c_stream c' = Some s' /\ n' = n) \/ (c_stream c' = None /\ n' = n - 1))).
  { intros r E1 E2. subst r. destruct (c_stream c) as [s|] eqn:S.
    - split; [discriminate|]. intros s0 _. destruct (read_on (c_files c) s f) as [[fl [rest|]] b']; injection E2 as <- <- <-; cbn; eauto.
    - injection E2 as <- <- <-. split; auto. intros s. congruence. }
  assert (K : forall x, (c, n, x) = (c', n', b) -> (c_stream c = None -> c_stream c' = None /\ n' = n) /\ (forall s, c_stream c = Some s -> (exists s', c_stream c' = Some s' /\ n' = n) \/ (c_stream c' = None /\ n' = n - 1))).
  { intros x E. injection E as <- <- <-. split; auto. intros s S. left. eauto. }
  destruct (c_table c); [|eapply K; eauto]. destruct f as [[| a f]|]; [eapply K; eauto | | eapply G; eauto]. destruct (find_item (c_files c) (a :: f)); [eapply K; eauto | eapply G; eauto].
Qed.

Lemma counted_set st L q c c' f n b : counted st L -> s_contents st q = Some c -> contents_exists c (s_open st) f = (c', n, b) -> exists L', counted (set_contents st q c' n) L'.
Proof.
  intros [A B C D M] Q H. apply contents_open in H. destruct H as [H1 H2].
  destruct (c_stream c) as [s|] eqn:S.
  - destruct q as [i|d]; [|rewrite (D d c Q) in S; discriminate]. assert (I : In i L) by (apply C; exists c, s; auto).
    destruct (H2 s eq_refl) as [(s' & S' & ->) | (S' & ->)].
    + exists L. constructor; auto. intros j. rewrite C. unfold open_at. cbn. destruct (j =? i) eqn:E; [|tauto]. apply Nat.eqb_eq in E. subst. split; intros _; [exists c', s' | exists c, s]; auto.
    + exists (remove Nat.eq_dec i L). constructor.
      * clear - A. induction L as [| j L IH]; cbn; [constructor|]. inversion A as [| ? ? X Y]; subst. destruct (Nat.eq_dec i j); auto. constructor; auto. intros Z. apply in_remove in Z. tauto.
      * cbn. rewrite <- B. clear - A I. revert I. induction L as [| j L IH]; intros I; [destruct I|]. inversion A as [| ? ? X Y]; subst. cbn. destruct (Nat.eq_dec i j) as [->|N].
        -- rewrite notin_remove by auto. lia.
        -- destruct I as [I|I]; [congruence|]. cbn. rewrite IH by auto. destruct L; [destruct I | cbn; lia].
      * intros j. unfold open_at. cbn. destruct (j =? i) eqn:E.
        -- apply Nat.eqb_eq in E. subst. split; [intros X; destruct (remove_In Nat.eq_dec L i X) | intros (c0 & s0 & X & Y); congruence].
        -- apply Nat.eqb_neq in E. split; [intros X; apply in_remove in X; apply C; tauto | intros X; apply in_in_remove; auto; apply C, X].
      * intros d c0 X. cbn in X. eauto.
      * assert (length (remove Nat.eq_dec i L) <= length L) by apply remove_length_le. lia.
  - destruct (H1 eq_refl) as [S' ->]. exists L. constructor; auto.
    + intros j. rewrite C. unfold open_at. cbn [set_contents s_contents]. destruct (place_eqb (Node j) q) eqn:E; [|tauto]. apply place_eqb_eq in E. subst q. split; intros (c0 & s0 & X & Y); congruence.
    + intros d c0 X. cbn [set_contents s_contents] in X. destruct (place_eqb (Own d) q) eqn:E; [congruence | eauto].
Qed.

Lemma counted_dir st L d p : counted st L -> counted (set_dir st d p) L.
Proof. intros [A B C D M]. constructor; auto. Qed.

Lemma counted_find st L w d st1 p : counted st L -> find_directory w st d = (st1, p) -> exists L', counted st1 L'.
Proof.
  intros K H. unfold find_directory in H. destruct (s_dirs st d); [injection H as <- <-; eauto|]. destruct (w_stat w d) as [i|]; [|injection H as <- <-; exists L; apply counted_dir; auto].
  destruct (s_contents st (Node i)) as [c|] eqn:C; [injection H as <- <-; exists L; apply counted_dir; auto|]. destruct K as [A B CC D M].
  assert (NI : ~ In i L). { intros X. apply CC in X. destruct X as (c & s & X & _). congruence. }
  destruct (w_open w d) as [l|].
  - destruct (S (s_open st) =? max_open) eqn:E.
    + destruct (contents_exists (mkcontents true [] (Some l)) (S (s_open st)) None) as [[c' n] b] eqn:CE. injection H as <- <-.
      assert (c_stream c' = None /\ n = s_open st) as [S' ->].
      { unfold contents_exists in CE. cbn in CE. destruct (read_on [] l None) as [[fl s'] b'] eqn:RO. apply read_on_spec in RO.
        destruct RO as (r & rest & _ & _ & _ & _ & _ & _ & _ & A7 & _). rewrite (A7 eq_refl) in CE. injection CE as <- <- <-. cbn. split; auto. lia. }
      exists L. constructor; auto. intros j. rewrite CC. unfold open_at. cbn. destruct (j =? i) eqn:J; [|tauto]. apply Nat.eqb_eq in J. subst. split; intros (c0 & s0 & X & Y); congruence.
    + injection H as <- <-. exists (i :: L). constructor.
      * constructor; auto.
      * cbn. lia.
      * intros j. unfold open_at. cbn. destruct (j =? i) eqn:J.
        -- apply Nat.eqb_eq in J. subst. split; auto. intros _. eexists _, l. split; [reflexivity | reflexivity].
        -- apply Nat.eqb_neq in J. rewrite CC. unfold open_at. split; [intros [X|X]; [congruence | auto] | auto].
      * intros e c0 X. cbn in X. eauto.
      * cbn. apply Nat.eqb_neq in E. unfold max_open in *. lia.
  - injection H as <- <-. exists L. constructor; auto. intros j. rewrite CC. unfold open_at. cbn. destruct (j =? i) eqn:J; [|tauto]. apply Nat.eqb_eq in J. subst.
    split; intros (c0 & s0 & X & Y); [congruence|]. injection X as <-. discriminate.
Qed.

Lemma calls_counted es : exists L, counted (calls init es) L.
Proof.
  induction es as [| [w k] es (L & K)] using rev_ind.
  - exists []. constructor; cbn; auto; try discriminate; [constructor | | unfold max_open; lia]. intros i. split; [intros [] | intros (c & s & X & _); discriminate].
  - rewrite calls_snoc. cbn [fst snd]. set (st := calls init es) in *. destruct k as [d f | d f | d f | d]; cbn [do_call].
    + unfold dir_file_exists_p. destruct (find_directory w st d) as [st1 [q|]] eqn:FD; destruct (counted_find _ _ _ _ _ _ K FD) as (L1 & K1); [|eexists; eauto].
      destruct (s_contents st1 q) as [c|] eqn:C; [|eexists; eauto]. destruct (contents_exists c (s_open st1) (Some f)) as [[c' n] b] eqn:CE. cbn. eapply counted_set; eauto.
    + unfold mark. destruct (find_directory w st d) as [st1 p] eqn:FD. destruct (counted_find _ _ _ _ _ _ K FD) as (L1 & [A B CC D M]). exists L1. cbn [fst].
      set (q := match p with Some q => q | None => Own d end). set (st2 := match p with Some _ => st1 | None => set_dir st1 d (Some (Own d)) end).
      assert (E2 : s_contents st2 = s_contents st1) by (unfold st2; destruct p; reflexivity).
      constructor; auto.
      * intros i. rewrite CC. unfold open_at. cbn [set_contents s_contents]. rewrite E2. destruct (place_eqb (Node i) q) eqn:E; [|tauto]. apply place_eqb_eq in E. rewrite <- E.
        split.
        -- intros (c0 & s0 & X & Y). eexists _, s0. split; [reflexivity|]. cbn. rewrite X. auto.
        -- intros (c0 & s0 & X & Y). injection X as <-. cbn in Y. destruct (s_contents st1 (Node i)) as [c1|]; [|discriminate]. exists c1, s0. auto.
      * intros e c0 X. cbn [set_contents s_contents] in X. rewrite E2 in X. destruct (place_eqb (Own e) q) eqn:E; [|eauto]. apply place_eqb_eq in E. rewrite <- E in X. injection X as <-. cbn.
        destruct (s_contents st1 (Own e)) as [c1|] eqn:C1; [|reflexivity]. eauto.
    + unfold marked. destruct (find_directory w st d) as [st1 p] eqn:FD. destruct (counted_find _ _ _ _ _ _ K FD) as (L1 & K1). eexists; eauto.
    + unfold list_dir. destruct (find_directory w st d) as [st1 [q|]] eqn:FD; destruct (counted_find _ _ _ _ _ _ K FD) as (L1 & K1); [|eexists; eauto].
      destruct (s_contents st1 q) as [c|] eqn:C; [|eexists; eauto]. destruct (c_table c); [|eexists; eauto]. destruct (contents_exists c (s_open st1) None) as [[c' n] b] eqn:CE. cbn. eapply counted_set; eauto.
Qed.
