(** Proofs about search paths: the whole search, and libraries. *)
From Verif Require Import Base M_Quote S_Quote M_Text S_Text P_Text P_Text3 M_Vpath S_Vpath P_Vpath.

Lemma dir_nonempty : forall v l d, dir_of v l -> In d l -> d <> [].
Proof.
  intros v l d H. destruct H as [v Hv Hd| | | |v c Hc Hd]; intros K; try (destruct K; fail).
  - destruct K as [<-|[]]. exact Hv.
  - destruct K as [<-|[]]. discriminate.
  - destruct K as [<-|[]]. intros E. destruct v; discriminate.
Qed.
Lemma directories_nonempty : forall s ds d, directories s ds -> In d ds -> d <> [].
Proof.
  intros s ds d (ps & dss & _ & F & ->) H. apply in_concat in H. destruct H as (l & H1 & H2).
  induction F as [|v l' ps dss D F IH]; [destruct H1|]. destruct H1 as [<-|H1]; [exact (dir_nonempty _ _ _ D H2)|exact (IH H1)].
Qed.
Lemma plain_from : forall d, d <> [] -> (forall v, d <> v ++ [c_slash]) -> plain_dir d.
Proof. intros d H N. destruct (exists_last H) as (v & c & ->). exists v, c. split; [reflexivity|]. intros ->. exact (N v eq_refl). Qed.

Lemma one_path_dirs : forall value G, directories value G -> gdirs (one_path value) = G.
Proof.
  intros value G H. pose proof (directories_dirs _ _ H) as E. unfold one_path. destruct value as [|c value].
  - cbn in E. subst G. reflexivity.
  - cbn [construct_vpath_list]. unfold dirs_of in E. rewrite E. cbn [unquote_pattern]. destruct G; reflexivity.
Qed.
Lemma lists_of_lines : forall texts ds L value gvalue,
  Forall2 reads texts ds -> in_force ds L ->
  lists (vpaths (build_vpath_lists (fold_left (fun l t => vpath_line t l) texts []) value gvalue)) = L.
Proof. intros texts ds L value gvalue R F. exact (lists_in_force texts ds R L F). Qed.
Lemma reads_dirs : forall t p ds d, reads t (Add p ds) -> In d ds -> d <> [].
Proof. intros t p ds d H. inversion H; subst. intros K. eapply directories_nonempty; eassumption. Qed.
Lemma in_force_from : forall ds L, in_force ds L -> forall p es, In (p, es) L -> exists q, In (Add q es) ds /\ p = pattern_of q.
Proof.
  intros ds L H. induction H as [|p ds later l Ne Hk H IH|p ds later l Hk H IH|d later l Hn H IH]; intros q es K; [destruct K| | |].
  - destruct K as [K|K]; [injection K as <- <-; exists p; split; [left; reflexivity|reflexivity]|].
    destruct (IH _ _ K) as (r & R1 & R2). exists r. split; [right; exact R1|exact R2].
  - destruct (IH _ _ K) as (r & R1 & R2). exists r. split; [right; exact R1|exact R2].
  - destruct (IH _ _ K) as (r & R1 & R2). exists r. split; [right; exact R1|exact R2].
Qed.

Section Whole.
  Variable T : Type.
  Variable lookup_file : str -> option (bool * option T).
  Variable listed : str -> str -> bool.
  Variable stat : str -> option T.
  Variable texts : list str.
  Variable ds : list directive.
  Variable L : list ((str * option str) * list str).
  Variable value gvalue : str.
  Variable G : list str.
  Hypothesis RD : Forall2 reads texts ds.
  Hypothesis IF : in_force ds L.
  Hypothesis DG : directories value G.
  Hypothesis NP : forall x es, In ((x, None), es) L -> ~ In c_percent x.
  Hypothesis NS : forall p es d, In (p, es) L -> In d es -> forall v, d <> v ++ [c_slash].
  Hypothesis NG : forall d, In d G -> forall v, d <> v ++ [c_slash].
  Notation ps := (build_vpath_lists (fold_left (fun l t => vpath_line t l) texts []) value gvalue).
  Notation search := (vpath_search T lookup_file listed stat ps).
  Notation accepted := (accepted T lookup_file listed stat).

  Lemma whole_outcome : forall file, (forall a b, file <> a ++ c_slash :: c_slash :: b) -> (forall y, file <> c_slash :: y) ->
    outcome T lookup_file listed stat L G file 0 (search file).
  Proof.
    intros file H1 H2. assert (R : regular file) by (split; assumption).
    pose proof (lists_of_lines texts ds L value gvalue RD IF) as EL. pose proof (one_path_dirs value G DG) as EG.
    assert (E : search file = search_lists T lookup_file listed stat file (general_vpath ps) 0 (vpaths ps)).
    { unfold vpath_search. destruct file as [|c f]; [reflexivity|]. destruct (c =?c c_slash) eqn:C; [|reflexivity].
      apply Ascii.eqb_eq in C. subst c. destruct (H2 f eq_refl). }
    rewrite E, <- EL, <- EG. apply lists_outcome; [exact R| | |].
    - intros d Hd. unfold build_vpath_lists in Hd. cbn [general_vpath] in Hd. rewrite EG in Hd. apply plain_from; [exact (directories_nonempty _ _ _ DG Hd)|exact (NG d Hd)].
    - cbn [build_vpath_lists vpaths]. apply Forall_rev. apply lists_good. constructor.
    - intros v Hv. assert (IV : In (view v, vp_dirs v) L) by (rewrite <- EL; apply in_map_iff; exists v; auto). split.
      + intros x Hx. rewrite Hx in IV. exact (NP _ _ IV).
      + intros d Hd. apply plain_from; [|exact (NS _ _ _ IV Hd)]. destruct (in_force_from _ _ IF _ _ IV) as (q & Q & _).
        clear - RD Q Hd. induction RD as [|t d' ts ds' H F IH]; [destruct Q|]. destruct Q as [->|Q]; [exact (reads_dirs _ _ _ _ H Hd)|exact (IH F Q)].
  Qed.

  (** ** Libraries *)
  Variable name_mtime : str -> option T.
  Variable uint_max : nat.
  Variable std : list str.
  Hypothesis BOUND : length L < uint_max - length std.
  Notation base := (uint_max - length std).
  Notation best := (best T).
  Notation hit := (hit T lookup_file listed stat name_mtime std L G).

  Definition le4 (c a e i c' a' e' i' : nat) : Prop :=
    c < c' \/ (c = c' /\ (a < a' \/ (a = a' /\ (e < e' \/ (e = e' /\ i <= i'))))).
  Definition hits := nat -> nat -> nat -> nat -> str -> option T -> Prop.
  Definition code (c a e : nat) (b : best) : Prop :=
    (c = 1 /\ b_vpath T b = a /\ b_path T b = e /\ a < base) \/ (c = 2 /\ b_vpath T b = base + a /\ e = 0).
  Definition Inv (P : hits) (b : best) : Prop :=
    match b_file T b with
    | None => forall c a e i n tm, ~ P c a e i n tm
    | Some (n, tm) => exists c a e i, P c a e i n tm /\ code c a e b /\
        forall c' a' e' i' n' tm', P c' a' e' i' n' tm' -> le4 c a e i c' a' e' i'
    end.
  Lemma inv_ext : forall P Q b, (forall c a e i n tm, P c a e i n tm <-> Q c a e i n tm) -> Inv P b -> Inv Q b.
  Proof.
    intros P Q b E H. unfold Inv in *. destruct (b_file T b) as [[n tm]|].
    - destruct H as (c & a & e & i & H1 & H2 & H3). exists c, a, e, i. split; [apply E; exact H1|]. split; [exact H2|].
      intros c' a' e' i' n' tm' K. apply E in K. exact (H3 _ _ _ _ _ _ K).
    - intros c a e i n tm K. apply E in K. exact (H _ _ _ _ _ _ K).
  Qed.

  (** The hits of one name in the standard directories before number [k]. *)
  Lemma std_inv : forall x i ds0 k b (P : hits),
    (forall c a e j n tm, P c a e j n tm -> j < i \/ (j = i /\ (c < 2 \/ (c = 2 /\ a < k)))) ->
    Inv P b ->
    Inv (fun c a e j n tm => P c a e j n tm \/ (c = 2 /\ k <= a /\ e = 0 /\ j = i /\ exists d t, nth_error ds0 (a - k) = Some d /\ n = d ++ c_slash :: x /\
           tm = Some t /\ name_mtime n = Some t)) (std_dirs T name_mtime x (base + k) ds0 b).
  Proof.
    intros x i. induction ds0 as [|d ds0 IH]; intros k b P HP HI; cbn [std_dirs].
    - apply (inv_ext P); [|exact HI]. intros c a e j n tm. split; [auto|]. intros [K|(_ & _ & _ & _ & d & t & K & _)]; [exact K|]. destruct (a - k); discriminate.
    - replace (S (base + k)) with (base + S k) by lia.
      set (P' := fun c a e j n tm => P c a e j n tm \/ (c = 2 /\ a = k /\ e = 0 /\ j = i /\ exists t, n = d ++ c_slash :: x /\ tm = Some t /\ name_mtime n = Some t)).
      assert (HP' : forall c a e j n tm, P' c a e j n tm -> j < i \/ (j = i /\ (c < 2 \/ (c = 2 /\ a < S k)))).
      { intros c a e j n tm [K|(-> & -> & -> & -> & _)]; [|right; split; [reflexivity|right; split; [reflexivity|lia]]].
        destruct (HP _ _ _ _ _ _ K) as [K1|[K1 [K2|[K2 K3]]]]; [left; exact K1|right; split; [exact K1|left; exact K2]|right; split; [exact K1|right; split; [exact K2|lia]]]. }
      match goal with |- Inv _ (std_dirs _ _ _ _ _ ?b') => assert (HI' : Inv P' b') end.
      { destruct (name_mtime (d ++ c_slash :: x)) as [t|] eqn:M.
        - unfold Inv in HI |- *. destruct (b_file T b) as [[n tm]|] eqn:F.
          + destruct HI as (c & a & e & j & H1 & H2 & H3). destruct (base + k <? b_vpath T b) eqn:LT.
            * apply Nat.ltb_lt in LT. cbn [b_file]. exists 2, k, 0, i. split; [right; repeat (split; [reflexivity|]); exists t; auto|].
              destruct H2 as [(-> & A & B & C)|(-> & A & B)]; [exfalso; lia|]. split; [right; cbn; lia|].
              intros c' a' e' i' n' tm' [K|(-> & -> & -> & -> & _)]; [|right; split; [reflexivity|right; split; [reflexivity|right; split; [reflexivity|lia]]]].
              specialize (H3 _ _ _ _ _ _ K). unfold le4 in *. lia.
            * apply Nat.ltb_ge in LT. rewrite F. exists c, a, e, j. split; [left; exact H1|]. split; [exact H2|].
              intros c' a' e' i' n' tm' [K|(-> & -> & -> & -> & _)]; [exact (H3 _ _ _ _ _ _ K)|]. specialize (HP _ _ _ _ _ _ H1). unfold le4, code in *. lia.
          + cbn [b_file]. exists 2, k, 0, i. split; [right; repeat (split; [reflexivity|]); exists t; auto|]. split; [right; cbn; lia|].
            intros c' a' e' i' n' tm' [K|(-> & -> & -> & -> & _)]; [destruct (HI _ _ _ _ _ _ K)|unfold le4; lia].
        - apply (inv_ext P); [|exact HI]. intros c a e j n tm. split; [left; assumption|]. intros [K|(_ & _ & _ & _ & t & -> & _ & K)]; [exact K|congruence]. }
      specialize (IH (S k) _ P' HP' HI'). eapply inv_ext; [|exact IH]. intros c a e j n tm. unfold P'. split.
      + intros [[K|(-> & -> & -> & -> & t & K)]|(-> & A & -> & -> & d' & t & K1 & K2)]; [left; exact K| |].
        * right. split; [reflexivity|]. split; [lia|]. split; [reflexivity|]. split; [reflexivity|]. exists d, t. rewrite Nat.sub_diag. auto.
        * right. split; [reflexivity|]. split; [lia|]. split; [reflexivity|]. split; [reflexivity|]. exists d', t. replace (a - k) with (S (a - S k)) by lia. auto.
      + intros [K|(-> & A & -> & -> & d' & t & K1 & K2 & K3 & K4)]; [left; left; exact K|]. destruct (a - k) as [|m] eqn:E.
        * injection K1 as <-. left. right. split; [reflexivity|]. split; [lia|]. split; [reflexivity|]. split; [reflexivity|]. exists t. auto.
        * right. split; [reflexivity|]. split; [lia|]. split; [reflexivity|]. split; [reflexivity|]. exists d', t. replace (a - S k) with m by lia. auto.
  Qed.

  Definition lib_name (lib p x : str) : Prop := exists pre post, pattern_of p = (pre, Some post) /\ x = pre ++ lib ++ post.
  (** All hits of the patterns numbered from [i0]. *)
  Definition hits_of (lib : str) (pats : list str) (i0 : nat) : hits := fun c a e i n tm =>
    i0 <= i /\ exists p x, nth_error pats (i - i0) = Some p /\ lib_name lib p x /\ hit x c a e n tm.

  Lemma place_bound : forall x vi pi d, place L G x vi pi d -> vi <= length L.
  Proof.
    intros x vi pi d H. inversion H; subst; [|lia]. apply Nat.lt_le_incl. apply nth_error_Some. congruence.
  Qed.
  Lemma hit_class : forall x c a e n tm, hit x c a e n tm -> name_mtime x = None -> c = 1 \/ c = 2.
  Proof. intros x c a e n tm H N. inversion H; subst; [congruence|auto|auto]. Qed.

  Lemma patterns_inv : forall lib pats i0 b (P : hits),
    (forall p x, In p pats -> lib_name lib p x -> forall a b0, x <> a ++ c_slash :: c_slash :: b0) ->
    (forall c a e j n tm, P c a e j n tm -> j < i0 /\ 0 < c) -> Inv P b ->
    exists b', lib_patterns T lookup_file listed stat name_mtime uint_max std ps lib pats b = Some b' /\
      match b_file T b' with
      | None => forall c a e i n tm, ~ (P c a e i n tm \/ hits_of lib pats i0 c a e i n tm)
      | Some (n, tm) => exists c a e i, (P c a e i n tm \/ hits_of lib pats i0 c a e i n tm) /\
          forall c' a' e' i' n' tm', P c' a' e' i' n' tm' \/ hits_of lib pats i0 c' a' e' i' n' tm' -> le4 c a e i c' a' e' i'
      end.
  Proof.
    intros lib. induction pats as [|p pats IH]; intros i0 b P RX HP HI; cbn [lib_patterns].
    - exists b. split; [reflexivity|]. assert (NO : forall c a e i n tm, ~ hits_of lib [] i0 c a e i n tm).
      { intros c a e i n tm (_ & p & x & K & _). destruct (i - i0); discriminate. }
      unfold Inv in HI. destruct (b_file T b) as [[n tm]|].
      + destruct HI as (c & a & e & i & H1 & _ & H3). exists c, a, e, i. split; [left; exact H1|]. intros c' a' e' i' n' tm' [K|K]; [exact (H3 _ _ _ _ _ _ K)|destruct (NO _ _ _ _ _ _ K)].
      + intros c a e i n tm [K|K]; [exact (HI _ _ _ _ _ _ K)|exact (NO _ _ _ _ _ _ K)].
    - rewrite split_percent_pattern_of. destruct (pattern_of p) as [pre [post|]] eqn:EP.
      2:{ destruct (IH (S i0) b P) as (b' & B1 & B2); [intros q x Hq; apply RX; right; exact Hq|intros c a e j n tm K; destruct (HP _ _ _ _ _ _ K); split; lia|exact HI|].
          exists b'. split; [exact B1|].
          assert (EQ : forall c a e i n tm, hits_of lib (p :: pats) i0 c a e i n tm <-> hits_of lib pats (S i0) c a e i n tm).
          { intros c a e i n tm. unfold hits_of. split.
            - intros (A & q & x & K1 & K2 & K3). destruct (i - i0) as [|m] eqn:E; [injection K1 as <-; destruct K2 as (u & w & K2 & _); congruence|].
              split; [lia|]. exists q, x. replace (i - S i0) with m by lia. auto.
            - intros (A & q & x & K1 & K2 & K3). split; [lia|]. exists q, x. replace (i - i0) with (S (i - S i0)) by lia. auto. }
          destruct (b_file T b') as [[n tm]|].
          - destruct B2 as (c & a & e & i & C1 & C2). exists c, a, e, i. split; [destruct C1 as [C1|C1]; [left; exact C1|right; apply EQ; exact C1]|].
            intros c' a' e' i' n' tm' [K|K]; [apply (C2 c' a' e' i' n' tm'); left; exact K|apply (C2 c' a' e' i' n' tm'); right; apply EQ; exact K].
          - intros c a e i n tm [K|K]; apply (B2 c a e i n tm); [left; exact K|right; apply EQ; exact K]. }
      set (x := pre ++ lib ++ post). assert (LN : lib_name lib p x) by (exists pre, post; auto).
      assert (LU : forall y, lib_name lib p y -> y = x) by (intros y (u & w & K & ->); rewrite EP in K; injection K as <- <-; reflexivity).
      destruct (name_mtime x) as [t|] eqn:NX.
      + eexists. split; [reflexivity|]. cbn [b_file]. exists 0, 0, 0, i0. split.
        * right. split; [lia|]. exists p, x. rewrite Nat.sub_diag. split; [reflexivity|]. split; [exact LN|]. exact (h_here _ _ _ _ _ _ _ _ _ t NX).
        * intros c' a' e' i' n' tm' [K|K]; [apply HP in K; unfold le4; lia|]. destruct K as (K & _). unfold le4. lia.
      + assert (O : match vpath_search T lookup_file listed stat ps x with
                    | Undefined _ => False
                    | Nothing _ => forall vi pi d tm, place L G x vi pi d -> accepted x d tm -> exists y, x = c_slash :: y
                    | Found _ n tm vi pi => (forall y, x <> c_slash :: y) /\ exists d, place L G x vi pi d /\ n = d ++ c_slash :: x /\ accepted x d tm /\
                        forall vi' pi' d', place L G x vi' pi' d' -> earlier vi' pi' vi pi -> forall tm', ~ accepted x d' tm'
                    end).
        { assert (DX : (exists y, x = c_slash :: y) \/ (forall y, x <> c_slash :: y)).
          { destruct x as [|c y]; [right; discriminate|]. destruct (ascii_dec c c_slash) as [->|K]; [left; eauto|right; congruence]. }
          destruct DX as [[y Y]|NSX].
          - rewrite Y. cbn [vpath_search]. rewrite (proj2 (Ascii.eqb_eq _ _) eq_refl). intros. eauto.
          - pose proof (whole_outcome x (RX p x (or_introl eq_refl) LN) NSX) as O. destruct (vpath_search T lookup_file listed stat ps x) as [|n tm vi pi|]; cbn [outcome] in O.
            + intros vi pi d tm K1 K2. destruct (O _ _ _ _ K1 K2).
            + destruct O as (_ & d & O). rewrite Nat.sub_0_r in O. split; [exact NSX|]. exists d. exact O.
            + exact O. }
        set (V := fun c a e j n tm => P c a e j n tm \/ (c = 1 /\ j = i0 /\ hit x 1 a e n tm)).
        assert (VB : forall c a e j n tm, V c a e j n tm -> j < i0 \/ (j = i0 /\ (c < 2 \/ (c = 2 /\ a < 0)))).
        { intros c a e j n tm [K|(-> & -> & K)]; [left; apply (HP _ _ _ _ _ _ K)|right; split; [reflexivity|left; lia]]. }
        assert (FIN : forall b1, Inv V b1 -> exists b', lib_patterns T lookup_file listed stat name_mtime uint_max std ps lib pats (std_dirs T name_mtime x base std b1) = Some b' /\
          match b_file T b' with
          | None => forall c a e i n tm, ~ (P c a e i n tm \/ hits_of lib (p :: pats) i0 c a e i n tm)
          | Some (n, tm) => exists c a e i, (P c a e i n tm \/ hits_of lib (p :: pats) i0 c a e i n tm) /\
              forall c' a' e' i' n' tm', P c' a' e' i' n' tm' \/ hits_of lib (p :: pats) i0 c' a' e' i' n' tm' -> le4 c a e i c' a' e' i'
          end).
        { intros b1 I1. pose proof (std_inv x i0 std 0 b1 V VB I1) as I2. rewrite Nat.add_0_r in I2.
          match type of I2 with Inv ?Q _ => set (W := Q) in I2 end.
          assert (EQ : forall c a e i n tm, (P c a e i n tm \/ hits_of lib (p :: pats) i0 c a e i n tm) <-> (W c a e i n tm \/ hits_of lib pats (S i0) c a e i n tm)).
          { intros c a e i n tm. unfold W, V, hits_of. split.
            - intros [K|(A & q & y & K1 & K2 & K3)]; [left; left; left; exact K|]. destruct (i - i0) as [|m] eqn:E.
              + injection K1 as <-. assert (i = i0) by lia. subst i. rewrite (LU y K2) in K3. left.
                inversion K3 as [t K4|vi pi d tm' K4 K5 K6|k d t K4 K5]; subst; [congruence| |].
                * left. right. auto.
                * right. split; [reflexivity|]. split; [lia|]. split; [reflexivity|]. split; [reflexivity|]. exists d, t. rewrite Nat.sub_0_r. auto.
              + right. split; [lia|]. exists q, y. replace (i - S i0) with m by lia. auto.
            - intros [[[K|(-> & -> & K)]|(-> & A & -> & -> & d & t & K1 & -> & -> & K4)]|(A & q & y & K1 & K2 & K3)]; [left; exact K| | |].
              + right. split; [lia|]. exists p, x. rewrite Nat.sub_diag. auto.
              + right. split; [lia|]. exists p, x. rewrite Nat.sub_diag. split; [reflexivity|]. split; [exact LN|]. rewrite Nat.sub_0_r in K1.
                exact (h_std _ _ _ _ _ _ _ _ _ a d t K1 K4).
              + right. split; [lia|]. exists q, y. replace (i - i0) with (S (i - S i0)) by lia. auto. }
          destruct (IH (S i0) (std_dirs T name_mtime x base std b1) W) as (b' & B1 & B2); [intros q y Hq; apply RX; right; exact Hq| |exact I2|].
          { intros c a e j n tm [[K|(-> & -> & K)]|(-> & _ & _ & -> & _)]; [destruct (HP _ _ _ _ _ _ K)| |]; split; lia. }
          exists b'. split; [exact B1|]. destruct (b_file T b') as [[n tm]|].
          - destruct B2 as (c & a & e & i & C1 & C2). exists c, a, e, i. split; [apply EQ; exact C1|]. intros c' a' e' i' n' tm' K. apply EQ in K. exact (C2 _ _ _ _ _ _ K).
          - intros c a e i n tm K. apply EQ in K. exact (B2 _ _ _ _ _ _ K). }
        destruct (vpath_search T lookup_file listed stat ps x) as [|n tm vi pi|]; [| |destruct O].
        * apply FIN. apply (inv_ext P); [|exact HI]. intros c a e i n tm. split; [left; assumption|]. intros [K|(-> & -> & K)]; [exact K|].
          inversion K as [|vi pi d tm' K4 K5 K6|]; subst. destruct (O _ _ _ _ K4 K5) as [y Y]. destruct (K6 y Y).
        * destruct O as (NSX & d & O1 & O2 & O3 & O4). apply FIN. pose proof (place_bound _ _ _ _ O1) as PB.
          assert (MIN : forall a e n' tm', hit x 1 a e n' tm' -> vi < a \/ (vi = a /\ pi <= e)).
          { intros a e n' tm' K. inversion K as [|vi' pi' d' tm2 K4 K5 K6|]; subst.
            destruct (lt_eq_lt_dec vi a) as [[X|X]|X]; [left; exact X| |exfalso; apply (O4 a e d' K4 (or_introl X) _ K5)].
            right. split; [exact X|]. destruct (le_lt_dec pi e) as [Y|Y]; [exact Y|]. exfalso. exact (O4 a e d' K4 (or_intror (conj (eq_sym X) Y)) _ K5). }
          assert (HX : hit x 1 vi pi n tm) by (rewrite O2; exact (h_path _ _ _ _ _ _ _ _ _ _ _ _ _ O1 O3 NSX)).
          assert (NEWB : (forall c a e j n' tm', P c a e j n' tm' -> le4 1 vi pi i0 c a e j) -> Inv V (mkbest T (Some (n, tm)) vi pi)).
          { intros LE. unfold Inv. cbn [b_file]. exists 1, vi, pi, i0. split; [right; auto|]. split; [left; cbn; lia|].
            intros c' a' e' i' n' tm' [K|(-> & -> & K)]; [exact (LE _ _ _ _ _ _ K)|]. specialize (MIN _ _ _ _ K). unfold le4. lia. }
          unfold Inv in HI. destruct (b_file T b) as [[n0 tm0]|] eqn:F.
          -- destruct HI as (c & a & e & j & H1 & H2 & H3). pose proof (HP _ _ _ _ _ _ H1) as [J C0].
             destruct ((vi <? b_vpath T b) || ((vi =? b_vpath T b) && (pi <? b_path T b))) eqn:LT.
             ++ apply NEWB. intros c' a' e' j' n' tm' K. specialize (H3 _ _ _ _ _ _ K). apply orb_true_iff in LT. rewrite andb_true_iff, Nat.ltb_lt, Nat.eqb_eq, Nat.ltb_lt in LT.
                unfold le4, code in *. lia.
             ++ unfold Inv. rewrite F. exists c, a, e, j. split; [left; exact H1|]. split; [exact H2|].
                intros c' a' e' i' n' tm' [K|(-> & -> & K)]; [exact (H3 _ _ _ _ _ _ K)|]. specialize (MIN _ _ _ _ K).
                apply orb_false_iff in LT. rewrite andb_false_iff, Nat.ltb_ge, Nat.eqb_neq, Nat.ltb_ge in LT. unfold le4, code in *. lia.
          -- apply NEWB. intros c a e j n' tm' K. destruct (HI _ _ _ _ _ _ K).
  Qed.
End Whole.
