(** Proofs about the cache of directories. *)
From Verif Require Import Base M_Dir S_Dir.
Open Scope list_scope.
Open Scope nat_scope.

Lemma place_eqb_eq p q : place_eqb p q = true <-> p = q.
Proof.
  destruct p, q; cbn; split; try discriminate; try (intros H; injection H as H).
  - rewrite Nat.eqb_eq. congruence.
  - apply Nat.eqb_eq. auto.
  - rewrite str_eqb_eq. congruence.
  - apply str_eqb_eq. auto.
Qed.
Lemma place_eqb_refl p : place_eqb p p = true.
Proof. apply place_eqb_eq. reflexivity. Qed.
Lemma place_dec (p q : place) : {p = q} + {p <> q}.
Proof. destruct (place_eqb p q) eqn:E; [left; apply place_eqb_eq; auto | right; intros X; apply place_eqb_eq in X; congruence]. Qed.
Lemma place_eqb_neq p q : p <> q -> place_eqb p q = false.
Proof. intros H. destruct (place_eqb p q) eqn:E; auto. apply place_eqb_eq in E. tauto. Qed.
Lemma str_dec (a b : str) : {a = b} + {a <> b}.
Proof. destruct (str_eqb a b) eqn:E; [left; apply str_eqb_eq; auto | right; apply str_eqb_neq; auto]. Qed.

(** * Tables of names *)
Lemma find_insert l f b g : find_item (insert l f b) g = if str_eqb f g then Some b else find_item l g.
Proof.
  induction l as [| [h x] l IH]; cbn; auto. destruct (str_eqb h f) eqn:E.
  - apply str_eqb_eq in E. subst. cbn. destruct (str_eqb f g); reflexivity.
  - cbn. destruct (str_eqb h g) eqn:G; auto. apply str_eqb_eq in G. subst. destruct (str_eqb f g) eqn:F; auto. apply str_eqb_eq in F. subst. rewrite str_eqb_refl in E. discriminate.
Qed.
Lemma insert_names l f b g : In g (map fst (insert l f b)) <-> g = f \/ In g (map fst l).
Proof.
  induction l as [| [h x] l IH]; cbn; [intuition congruence|]. destruct (str_eqb h f) eqn:E; cbn.
  - apply str_eqb_eq in E. subst. intuition congruence.
  - rewrite IH. intuition congruence.
Qed.
Lemma insert_nodup l f b : NoDup (map fst l) -> NoDup (map fst (insert l f b)).
Proof.
  induction l as [| [h x] l IH]; cbn; intros H; [constructor; auto; constructor|]. inversion H as [| ? ? N D]; subst. destruct (str_eqb h f) eqn:E; cbn.
  - apply str_eqb_eq in E. subst. constructor; auto.
  - constructor; auto. intros X. apply insert_names in X. destruct X as [X|X]; auto. subst. rewrite str_eqb_refl in E. discriminate.
Qed.
Lemma find_in l f b : NoDup (map fst l) -> (find_item l f = Some b <-> In (f, b) l).
Proof.
  induction l as [| [h x] l IH]; cbn; intros H; [split; [discriminate | tauto]|]. inversion H as [| ? ? N D]; subst. destruct (str_eqb h f) eqn:E.
  - apply str_eqb_eq in E. subst. split; [intros X; left; congruence|]. intros [X|X]; [congruence|]. destruct N. apply in_map_iff. exists (f, b). auto.
  - apply str_eqb_neq in E. rewrite IH by auto. split; auto. intros [X|X]; auto. congruence.
Qed.

Lemma read_on_spec s : forall fl f fl' s' b, read_on fl s f = (fl', s', b) ->
  exists r rest, s = r ++ rest /\ s' = (match s' with None => None | Some _ => Some rest end) /\ (s' = None -> rest = []) /\
    (forall g, find_item fl' g = Some false <-> find_item fl g = Some false \/ In g r) /\
    (forall g, find_item fl' g = Some true <-> find_item fl g = Some true /\ ~ In g r) /\
    (NoDup (map fst fl) -> NoDup (map fst fl')) /\
    (forall f', f = Some f' -> b = true <-> In f' s) /\ (f = None -> s' = None) /\ (s' <> None -> b = true).
Proof.
  induction s as [| g s IH]; intros fl f fl' s' b H; cbn in H.
  - injection H as <- <- <-. exists [], []. split; auto. split; auto. split; auto. split; [|split; [|split; [|split; [|split]]]]; auto.
    + intros g. cbn. tauto.
    + intros g. cbn. tauto.
    + intros f' _. cbn. split; [discriminate | tauto].
  - assert (IN : forall h (x : bool), find_item (insert fl g false) h = Some x <-> (h = g /\ x = false) \/ (h <> g /\ find_item fl h = Some x)).
    { intros h x. rewrite find_insert. destruct (str_eqb g h) eqn:E; [apply str_eqb_eq in E | apply str_eqb_neq in E]; subst; intuition congruence. }
    destruct f as [f|].
    + destruct (str_eqb g f) eqn:E.
      * injection H as <- <- <-. apply str_eqb_eq in E. subst g. exists [f], s. split; auto. split; auto. split; [discriminate|]. split; [|split; [|split; [|split; [|split]]]].
        -- intros h. rewrite IN. cbn. destruct (str_dec h f); intuition congruence.
        -- intros h. rewrite IN. cbn. intuition congruence.
        -- apply insert_nodup.
        -- intros f' F. injection F as <-. cbn. tauto.
        -- discriminate.
        -- auto.
      * apply str_eqb_neq in E. apply IH in H. destruct H as (r & rest & -> & A1 & A2 & A3 & A4 & A5 & A6 & A7 & A8). exists (g :: r), rest. split; auto. split; auto. split; auto. split; [|split; [|split; [|split; [|split]]]]; auto.
        -- intros h. rewrite A3, IN. cbn. destruct (str_dec h g); intuition congruence.
        -- intros h. rewrite A4, IN. cbn. intuition congruence.
        -- intros N. apply A5, insert_nodup, N.
        -- intros f' F. rewrite (A6 f' F). injection F as <-. cbn. intuition congruence.
    + apply IH in H. destruct H as (r & rest & -> & A1 & A2 & A3 & A4 & A5 & A6 & A7 & A8). exists (g :: r), rest. split; auto. split; auto. split; auto. split; [|split; [|split; [|split; [|split]]]]; auto.
      * intros h. rewrite A3, IN. cbn. destruct (str_dec h g); intuition congruence.
      * intros h. rewrite A4, IN. cbn. intuition congruence.
      * intros N. apply A5, insert_nodup, N.
      * intros f' F. discriminate.
Qed.

(** * Visits *)
Lemma find_app {A} (p : A -> bool) a b : find p (a ++ b) = match find p a with Some x => Some x | None => find p b end.
Proof. induction a as [| x a IH]; cbn; auto. destruct (p x); auto. Qed.
Lemma find_ext {A} (p q : A -> bool) l : (forall x, In x l -> p x = q x) -> find p l = find q l.
Proof. induction l as [| x l IH]; cbn; intros H; auto. rewrite (H x) by auto. destruct (q x); auto. Qed.
Lemma looked_snoc vs w d e : looked (vs ++ [(w, d)]) e = match looked vs e with Some x => Some x | None => if str_eqb d e then Some w else None end.
Proof. unfold looked. rewrite find_app. destruct (find (fun v => str_eqb (snd v) e) vs); auto. cbn. destruct (str_eqb d e); reflexivity. Qed.
Lemma looked_in vs d : (exists w, looked vs d = Some w) <-> In d (map snd vs).
Proof.
  unfold looked. split.
  - intros (w & H). destruct (find (fun v => str_eqb (snd v) d) vs) as [v|] eqn:F; [|discriminate]. apply find_some in F. destruct F as [F E]. apply str_eqb_eq in E. subst. apply in_map. auto.
  - intros H. apply in_map_iff in H. destruct H as (v & <- & I). destruct (find (fun v0 => str_eqb (snd v0) (snd v)) vs) as [x|] eqn:F; [eexists; reflexivity|].
    exfalso. pose proof (find_none _ _ F v I) as X. cbn in X. rewrite str_eqb_refl in X. discriminate.
Qed.
Lemma node_old vs w d e : In e (map snd vs) -> node (vs ++ [(w, d)]) e = node vs e.
Proof. intros H. apply looked_in in H. destruct H as (x & H). unfold node. rewrite looked_snoc, H. reflexivity. Qed.
Lemma node_new vs w d : ~ In d (map snd vs) -> node (vs ++ [(w, d)]) d = w_stat w d.
Proof.
  intros H. unfold node. rewrite looked_snoc. destruct (looked vs d) eqn:L; [destruct H; apply looked_in; eauto|]. rewrite str_eqb_refl. reflexivity.
Qed.
Lemma node_in vs d i : node vs d = Some i -> In d (map snd vs).
Proof. unfold node. intros H. apply looked_in. destruct (looked vs d); [eauto | discriminate]. Qed.
Definition visited (vs : list (world * str)) (i : nat) : Prop := exists d, node vs d = Some i.
Lemma find_node_old vs w d i : find (is_node (vs ++ [(w, d)]) i) vs = find (is_node vs i) vs.
Proof. apply find_ext. intros v I. unfold is_node. rewrite node_old; auto. apply in_map. auto. Qed.
Lemma visited_find vs i : visited vs i <-> find (is_node vs i) vs <> None.
Proof.
  split.
  - intros (d & H). intros N. pose proof (node_in _ _ _ H) as I. apply in_map_iff in I. destruct I as (v & <- & I). pose proof (find_none _ _ N v I) as X.
    unfold is_node in X. rewrite H, Nat.eqb_refl in X. discriminate.
  - intros H. destruct (find (is_node vs i) vs) as [[w d]|] eqn:F; [|congruence]. apply find_some in F. destruct F as [_ F]. unfold is_node in F. cbn in F. exists d.
    destruct (node vs d) as [j|]; try discriminate. apply Nat.eqb_eq in F. congruence.
Qed.
Lemma listing_old vs w d i : visited vs i -> listing (vs ++ [(w, d)]) i = listing vs i.
Proof.
  intros H. apply visited_find in H. unfold listing. rewrite find_app, find_node_old. destruct (find (is_node vs i) vs); [reflexivity | congruence].
Qed.
Lemma listing_none vs i : ~ visited vs i -> listing vs i = None.
Proof. intros H. unfold listing. destruct (find (is_node vs i) vs) eqn:E; auto. destruct H. apply visited_find. congruence. Qed.
Lemma listing_new vs w d i : ~ visited vs i -> ~ In d (map snd vs) -> w_stat w d = Some i -> listing (vs ++ [(w, d)]) i = w_open w d.
Proof.
  intros H N S. unfold listing. rewrite find_app, find_node_old. destruct (find (is_node vs i) vs) eqn:E; [destruct H; apply visited_find; congruence|].
  cbn. unfold is_node. cbn. rewrite node_new, S, Nat.eqb_refl by auto. reflexivity.
Qed.
Lemma visited_old vs w d i : visited vs i -> visited (vs ++ [(w, d)]) i.
Proof. intros (e & H). exists e. rewrite node_old; auto. eapply node_in; eauto. Qed.
Lemma visited_snoc vs w d i : visited (vs ++ [(w, d)]) i -> visited vs i \/ (~ In d (map snd vs) /\ w_stat w d = Some i).
Proof.
  intros (e & H). destruct (in_dec str_dec e (map snd vs)) as [I|N].
  - left. exists e. rewrite <- (node_old vs w d e I). auto.
  - pose proof (node_in _ _ _ H) as I. rewrite map_app in I. apply in_app_or in I. destruct I as [I | [I | []]]; [tauto|]. cbn in I. subst e. right. split; auto. rewrite <- (node_new vs w d N). auto.
Qed.

Definition place_of (vs : list (world * str)) (d : str) : place := match node vs d with Some i => Node i | None => Own d end.
Definition listed (vs : list (world * str)) (p : place) : option (list str) := match p with Node i => listing vs i | Own _ => None end.

(** * The invariant *)
Section Inv.
  Definition marks := place -> str -> Prop.
  Record fine (vs : list (world * str)) (mk : marks) (p : place) (c : contents) : Prop := {
    f_nodup : NoDup (map fst (c_files c));
    f_marks : forall f, find_item (c_files c) f = Some true <-> mk p f;
    f_list : match listed vs p with
             | Some l => c_table c = true /\ exists r rest, l = r ++ rest /\ (c_stream c = Some rest \/ c_stream c = None /\ rest = []) /\
                                            forall f, find_item (c_files c) f = Some false <-> In f r
             | None => c_stream c = None /\ (forall f, find_item (c_files c) f <> Some false) /\ (c_table c = true <-> exists f, mk p f)
             end }.
  Record inv (vs : list (world * str)) (mk : marks) (st : state) : Prop := {
    i_dirs : forall d, s_dirs st d = match looked vs d with
                                     | None => None
                                     | Some w => Some (match w_stat w d with
                                                       | Some i => Some (Node i)
                                                       | None => match s_contents st (Own d) with Some _ => Some (Own d) | None => None end
                                                       end)
                                     end;
    i_none : forall i, s_contents st (Node i) = None <-> ~ visited vs i;
    i_own : forall d, s_contents st (Own d) <> None -> (exists f, mk (Own d) f) /\ In d (map snd vs) /\ node vs d = None;
    i_marks : forall p f, mk p f -> s_contents st p <> None;
    i_fine : forall p c, s_contents st p = Some c -> fine vs mk p c;
    i_apart : forall p f l, mk p f -> listed vs p = Some l -> ~ In f l }.

  Lemma inv_init : inv [] (fun _ _ => False) init.
  Proof.
    constructor; cbn; auto; try tauto; try discriminate; try congruence.
    intros i. split; auto. intros _ (d & H). discriminate.
  Qed.

  Lemma listed_old vs w d p : (forall i, p = Node i -> visited vs i) -> listed (vs ++ [(w, d)]) p = listed vs p.
  Proof. intros H. destruct p; cbn; auto. apply listing_old, H. reflexivity. Qed.

  Lemma fine_old vs w d mk p c : (forall i, p = Node i -> visited vs i) -> fine vs mk p c -> fine (vs ++ [(w, d)]) mk p c.
  Proof. intros V [A B C]. constructor; auto. rewrite listed_old; auto. Qed.

  Lemma contents_exists_fine vs (mk : marks) p c n f c' n' b : (forall g l, mk p g -> listed vs p = Some l -> ~ In g l) -> fine vs mk p c ->
    contents_exists c n f = (c', n', b) ->
    fine vs mk p c' /\ c_table c' = c_table c /\
    (forall f', f = Some f' -> f' <> [] -> b = true <-> exists l, listed vs p = Some l /\ In f' l) /\
    (f = Some [] -> b = c_table c) /\ (f = None -> c_stream c' = None \/ c_table c = false).
  Proof.
    intros AP F H. assert (F0 := F). destruct F0 as [FN FM FL]. unfold contents_exists in H. destruct (c_table c) eqn:T.
    2:{ injection H as <- <- <-. split; auto. split; auto. split; [|split; auto]. intros f' _ _. split; [discriminate|].
        intros (l & X & _). rewrite X in FL. destruct FL. congruence. }
    assert (RD : forall r, (match c_stream c with
                       | None => (c, n, false)
                       | Some s => match read_on (c_files c) s f with
                                   | (files, Some rest, b) => (mkcontents true files (Some rest), n, b)
                                   | (files, None, b) => (mkcontents true files None, n - 1, b)
                                   end
                       end) = r -> r = (c', n', b) -> (forall f', f = Some f' -> find_item (c_files c) f' = None) ->
               fine vs mk p c' /\ c_table c' = true /\ (forall f', f = Some f' -> b = true <-> exists l, listed vs p = Some l /\ In f' l) /\ (f = None -> c_stream c' = None)).
    { intros r R E NF. subst r. destruct (c_stream c) as [s|] eqn:S.
      - destruct (listed vs p) as [l|] eqn:L; [|destruct FL; congruence]. destruct FL as (_ & r & rest & -> & [RS|[RS _]] & FR); [|congruence]. injection RS as ->.
        destruct (read_on (c_files c) rest f) as [[fl' s'] b'] eqn:RO. apply read_on_spec in RO. destruct RO as (r2 & rest2 & -> & A1 & A2 & A3 & A4 & A5 & A6 & A7 & A8).
        assert (FINE : fine vs mk p (mkcontents true fl' s')).
        { constructor; cbn; auto.
          - intros g. rewrite A4, FM. split; [tauto|]. intros M. split; auto. intros I. apply (AP g _ M eq_refl). apply in_or_app. right. apply in_or_app. auto.
          - rewrite L. split; auto. exists (r ++ r2), rest2. split; [rewrite app_assoc; reflexivity|]. split.
            + destruct s'; [left; auto | right; split; auto].
            + intros g. rewrite A3, FR, in_app_iff. tauto. }
        assert (AN : forall f', f = Some f' -> b' = true <-> exists l, Some (r ++ r2 ++ rest2) = Some l /\ In f' l).
        { intros f' E'. rewrite (A6 f' E'). split.
          - intros I. eexists. split; [reflexivity|]. apply in_or_app. auto.
          - intros (l & X & I). injection X as <-. apply in_app_or in I. destruct I as [I|I]; auto. exfalso. apply FR in I. rewrite (NF f' E') in I. discriminate. }
        destruct s' as [x|]; injection E as <- <- <-; (split; [exact FINE|]; split; [reflexivity|]; split; [exact AN|]); intros E'; [specialize (A7 E'); discriminate | reflexivity].
      - injection E as <- <- <-. split; auto. split; auto. split; auto. intros f' E'. split; [discriminate|]. intros (l & L & I). rewrite L in FL.
        destruct FL as (_ & r & rest & -> & [RS|[_ ->]] & FR); [congruence|]. rewrite app_nil_r in I. apply FR in I. rewrite (NF f' E') in I. discriminate. }
    destruct f as [[| a f]|].
    - injection H as <- <- <-. split; auto. split; auto. split; [|split; [auto | discriminate]]. intros f' E NE. congruence.
    - destruct (find_item (c_files c) (a :: f)) as [im|] eqn:FI.
      + injection H as <- <- <-. split; auto. split; auto. split; [|split; [discriminate|discriminate]]. intros f' E _. injection E as <-. destruct im; cbn.
        * apply FM in FI. split; [discriminate|]. intros (l & L & I). destruct (AP _ _ FI L I).
        * split; auto. intros _. destruct (listed vs p) as [l|]; [|destruct FL as (_ & X & _); destruct (X _ FI)]. destruct FL as (_ & r & rest & -> & _ & FR).
          eexists. split; [reflexivity|]. apply in_or_app. left. apply FR, FI.
      + destruct (RD _ eq_refl H) as (A & B & C & D). { intros f' E. injection E as <-. auto. }
        split; auto. split; auto. split; [|split; discriminate]. intros f' E _. apply C, E.
    - destruct (RD _ eq_refl H) as (A & B & C & D). { intros f' E. discriminate. }
      split; auto. split; auto. split; [discriminate|]. split; [discriminate|]. auto.
  Qed.

  (** The contents at one place change. *)
  Lemma inv_set vs mk st p c n : inv vs mk st -> s_contents st p <> None -> fine vs mk p c -> inv vs mk (set_contents st p c n).
  Proof.
    intros I N F. assert (SAME : forall q, s_contents (set_contents st p c n) q = None <-> s_contents st q = None).
    { intros q. cbn. destruct (place_eqb q p) eqn:E; [|tauto]. apply place_eqb_eq in E. subst. split; [discriminate | tauto]. }
    destruct I as [I1 I2 I3 I4 I5 I6]. constructor; auto.
    - intros d. cbn [set_contents s_dirs s_contents]. rewrite I1. destruct (looked vs d); auto. destruct (w_stat w d); auto.
      destruct (place_eqb (Own d) p) eqn:E; auto. apply place_eqb_eq in E. subst p. destruct (s_contents st (Own d)); [reflexivity | congruence].
    - intros i. rewrite SAME. apply I2.
    - intros d H. apply I3. intros X. apply H, SAME, X.
    - intros q f H X. apply SAME in X. apply (I4 q f H X).
    - intros q c0 H. cbn in H. destruct (place_eqb q p) eqn:E; auto. apply place_eqb_eq in E. subst. injection H as <-. auto.
  Qed.

  Lemma find_inv vs mk st w d st1 p : inv vs mk st -> find_directory w st d = (st1, p) ->
    inv (vs ++ [(w, d)]) mk st1 /\ s_dirs st1 d = Some p /\ (forall q, p = Some q -> s_contents st1 q <> None /\ q = place_of (vs ++ [(w, d)]) d) /\
    (p = None -> node (vs ++ [(w, d)]) d = None /\ s_contents st1 (Own d) = None).
  Proof.
    intros I H. assert (I0 := I). destruct I0 as [I1 I2 I3 I4 I5 I6]. unfold find_directory in H.
    assert (OLD : In d (map snd vs) -> inv (vs ++ [(w, d)]) mk st).
    { intros D. constructor; auto.
      - intros e. rewrite looked_snoc, I1. destruct (looked vs e) eqn:L; auto. destruct (str_eqb d e) eqn:E; auto. apply str_eqb_eq in E. subst. apply looked_in in D. destruct D. congruence.
      - intros i. rewrite I2. split; intros X Y; apply X; [|apply visited_old; auto]. apply visited_snoc in Y. tauto.
      - intros e X. destruct (I3 e X) as (A & B & C). split; auto. rewrite node_old, map_app by auto. split; auto. apply in_or_app. auto.
      - intros q c X. apply fine_old; [|apply I5; auto]. intros i ->. destruct (in_dec str_dec d (map snd vs)); [|tauto].
        assert (Y : ~ ~ visited vs i) by (rewrite <- I2; congruence). apply visited_find. intros Z. apply Y. intros V. apply visited_find in V. tauto.
      - intros q f l M L. apply (I6 q f l M). destruct q as [i|]; [|discriminate]. rewrite <- L. symmetry. apply listed_old. intros j E. injection E as <-.
        pose proof (I4 _ _ M) as X. assert (Y : ~ ~ visited vs i) by (rewrite <- I2; auto). apply visited_find. intros Z. apply Y. intros V. apply visited_find in V. tauto. }
    destruct (s_dirs st d) as [q|] eqn:D.
    - injection H as <- <-. rewrite I1 in D. destruct (looked vs d) as [w0|] eqn:L; try discriminate. injection D as D.
      assert (IN : In d (map snd vs)) by (apply looked_in; eauto). assert (ND : node (vs ++ [(w, d)]) d = w_stat w0 d) by (rewrite node_old by auto; unfold node; rewrite L; reflexivity).
      split; [auto|]. split; [rewrite I1, L; congruence|]. unfold place_of. rewrite ND. destruct (w_stat w0 d) as [i|] eqn:S.
      + subst q. split; [|discriminate]. intros q E. injection E as <-. split; auto. rewrite I2. intros X. apply X. exists d. unfold node. rewrite L. auto.
      + destruct (s_contents st (Own d)) eqn:C; subst q; (split; [|auto; try discriminate]); intros q E; try discriminate. injection E as <-. split; congruence.
    - assert (L : looked vs d = None). { rewrite I1 in D. destruct (looked vs d); [discriminate | auto]. }
      assert (NI : ~ In d (map snd vs)). { intros X. apply looked_in in X. destruct X. congruence. }
      assert (OWN : s_contents st (Own d) = None). { destruct (s_contents st (Own d)) eqn:E; auto. destruct (I3 d) as (_ & X & _); [congruence | tauto]. }
      assert (VD : forall i, s_contents st (Node i) <> None -> visited vs i).
      { intros i X. assert (Y : ~ ~ visited vs i) by (rewrite <- I2; auto). apply visited_find. intros Z. apply Y. intros V. apply visited_find in V. tauto. }
      assert (AP : forall (q : place) f l, mk q f -> listed (vs ++ [(w, d)]) q = Some l -> ~ In f l).
      { intros q f l M LL. apply (I6 q f l M). rewrite <- LL. symmetry. apply listed_old. intros i ->. apply VD. apply (I4 _ _ M). }
      destruct (w_stat w d) as [i|] eqn:ST.
      + set (st0 := set_dir st d (Some (Node i))) in *.
        assert (DIRS : forall st2, s_dirs st2 = s_dirs st0 -> (forall e, s_contents st2 (Own e) = s_contents st (Own e)) -> forall e, s_dirs st2 e = match looked (vs ++ [(w, d)]) e with
                                     | None => None
                                     | Some w => Some (match w_stat w e with Some i => Some (Node i) | None => match s_contents st2 (Own e) with Some _ => Some (Own e) | None => None end end) end).
        { intros st2 E1 E2 e. rewrite E1, E2, looked_snoc. cbn. rewrite I1. destruct (str_eqb e d) eqn:E.
          - apply str_eqb_eq in E. subst. rewrite L, str_eqb_refl, ST. reflexivity.
          - apply str_eqb_neq in E. destruct (looked vs e); auto. replace (str_eqb d e) with false; auto. symmetry. apply str_eqb_neq. auto. }
        assert (ND : node (vs ++ [(w, d)]) d = Some i) by (rewrite node_new; auto).
        assert (VIS : forall j, visited (vs ++ [(w, d)]) j <-> j = i \/ visited vs j).
        { intros j. split; [|intros [-> | V]; [exists d; auto | apply visited_old; auto]]. intros V. apply visited_snoc in V. destruct V as [V | [_ V]]; auto. left. congruence. }
        assert (OWNS : forall e, s_contents st (Own e) <> None -> (exists f, mk (Own e) f) /\ In e (map snd (vs ++ [(w, d)])) /\ node (vs ++ [(w, d)]) e = None).
        { intros e X. destruct (I3 e X) as (A & B & C). split; auto. rewrite node_old, map_app by auto. split; auto. apply in_or_app. auto. }
        assert (PL : place_of (vs ++ [(w, d)]) d = Node i) by (unfold place_of; rewrite ND; reflexivity).
        assert (NEW : s_contents st (Node i) = None -> forall c n, (forall l, w_open w d = Some l -> c_table c = true /\ NoDup (map fst (c_files c)) /\ (forall f, find_item (c_files c) f <> Some true) /\
                            exists r rest, l = r ++ rest /\ (c_stream c = Some rest \/ c_stream c = None /\ rest = []) /\ forall f, find_item (c_files c) f = Some false <-> In f r) ->
                       (w_open w d = None -> c = mkcontents false [] None) -> inv (vs ++ [(w, d)]) mk (set_contents st0 (Node i) c n)).
        { intros CN c n HS HN. assert (NV : ~ visited vs i) by (apply I2; auto). assert (NM : forall f, ~ mk (Node i) f) by (intros f M; apply (I4 _ _ M); auto).
          constructor; auto.
          - intros j. cbn. destruct (j =? i) eqn:E.
            + apply Nat.eqb_eq in E. subst. rewrite VIS. split; [discriminate | tauto].
            + apply Nat.eqb_neq in E. rewrite VIS, I2. tauto.
          - intros q f M. cbn. destruct (place_eqb q (Node i)); [discriminate | apply (I4 _ _ M)].
          - intros q c0 X. cbn in X. destruct (place_eqb q (Node i)) eqn:E.
            + apply place_eqb_eq in E. subst q. injection X as <-. destruct (w_open w d) as [l|] eqn:O.
              * destruct (HS l eq_refl) as (A & B & C & R). constructor; auto.
                -- intros f. split; [intros X; destruct (C f X) | intros M; destruct (NM f M)].
                -- cbn. rewrite (listing_new vs w d i NV NI ST), O. auto.
              * rewrite (HN eq_refl). constructor; cbn.
                -- constructor.
                -- intros f. split; [discriminate | intros M; destruct (NM f M)].
                -- rewrite (listing_new vs w d i NV NI ST), O. repeat split; auto; try discriminate. intros (f & M). destruct (NM f M).
            + apply fine_old; [|apply I5; auto]. intros j ->. apply VD. congruence. }
        destruct (s_contents st (Node i)) as [c|] eqn:C.
        * injection H as <- <-. split; [|split; [cbn; rewrite str_eqb_refl; reflexivity | split; [|discriminate]]].
          -- constructor; auto.
             ++ intros j. cbn. rewrite VIS, I2. assert (visited vs i) by (apply VD; congruence). split; [intros X [-> | Y]; auto | tauto].
             ++ intros q c0 X. apply fine_old; [|apply I5; auto]. intros j ->. apply VD. cbn in X. congruence.
          -- intros q E. injection E as <-. rewrite PL. cbn. split; [congruence | auto].
        * destruct (w_open w d) as [l|] eqn:O.
          -- destruct (S (s_open st) =? max_open).
             ++ destruct (contents_exists (mkcontents true [] (Some l)) (S (s_open st)) None) as [[c' n'] b] eqn:CE. injection H as <- <-.
                unfold contents_exists in CE. cbn in CE. destruct (read_on [] l None) as [[fl' s'] b'] eqn:RO. apply read_on_spec in RO.
                destruct RO as (r & rest & E & A1 & A2 & A3 & A4 & A5 & A6 & A7 & A8). rewrite (A7 eq_refl) in *. injection CE as <- <- <-. split; [apply NEW; auto|].
                ** intros l0 X. injection X as <-. cbn. split; auto. split; [apply A5; constructor|]. split; [intros f X; apply A4 in X; destruct X; discriminate|]. exists r, rest. split; auto. split; auto.
                   intros f. rewrite A3. cbn. intuition discriminate.
                ** discriminate.
                ** cbn. rewrite str_eqb_refl. split; auto. split; [|discriminate]. intros q X. injection X as <-. rewrite PL, place_eqb_refl. split; [discriminate | auto].
             ++ injection H as <- <-. split; [apply NEW; auto|].
                ** intros l0 X. injection X as <-. cbn. split; auto. split; [constructor|]. split; [discriminate|]. exists [], l. split; auto. split; auto. intros f. split; [discriminate | intros []].
                ** discriminate.
                ** cbn. rewrite str_eqb_refl. split; auto. split; [|discriminate]. intros q X. injection X as <-. rewrite PL, place_eqb_refl. split; [discriminate | auto].
          -- injection H as <- <-. split; [apply NEW; auto; discriminate|]. cbn. rewrite str_eqb_refl. split; auto. split; [|discriminate]. intros q X. injection X as <-. rewrite PL, place_eqb_refl. split; [discriminate | auto].
      + injection H as <- <-. split; [|split; [cbn; rewrite str_eqb_refl; reflexivity | split; [discriminate|]]].
        * constructor; auto.
          -- intros e. cbn. rewrite looked_snoc, I1. destruct (str_eqb e d) eqn:E.
             ++ apply str_eqb_eq in E. subst. rewrite L, str_eqb_refl, ST, OWN. reflexivity.
             ++ apply str_eqb_neq in E. destruct (looked vs e); auto. replace (str_eqb d e) with false; auto. symmetry. apply str_eqb_neq. auto.
          -- intros i. cbn. rewrite I2. split; intros X Y; apply X; [|apply visited_old; auto]. apply visited_snoc in Y. destruct Y as [Y | [_ Y]]; [auto | congruence].
          -- intros e X. cbn in X. destruct (I3 e X) as (A & B & C). split; auto. rewrite node_old, map_app by auto. split; auto. apply in_or_app. auto.
          -- intros q c X. apply fine_old; [|apply I5; auto]. intros i ->. apply VD. cbn in X. congruence.
        * intros _. rewrite node_new; auto.
  Qed.
End Inv.
