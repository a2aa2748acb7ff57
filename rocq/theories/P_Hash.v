(** Proofs about the hash table model. *)
From Coq Require Import FinFun Znumtheory Zpow_facts.
From Verif Require Import Base M_Hash S_Hash.
Open Scope nat_scope.

Lemma set_length : forall B (v : list B) i x, length (set v i x) = length v.
Proof.
  intros B v. induction v as [|y v IH]; intros [|i] x; simpl; auto.
Qed.

Lemma nth_set_eq : forall B (v : list B) i x d, i < length v -> nth i (set v i x) d = x.
Proof.
  intros B v. induction v as [|y v IH]; intros [|i] x d H; simpl in *; try lia; auto.
  apply IH. lia.
Qed.

Lemma nth_set_neq : forall B (v : list B) i j x d, i <> j -> nth j (set v i x) d = nth j v d.
Proof.
  intros B v. induction v as [|y v IH]; intros [|i] [|j] x d H; simpl; auto; try lia.
Qed.

(** An odd number is coprime to a power of two. *)
Lemma odd_rel_prime : forall n s, Nat.odd s = true -> rel_prime (Z.of_nat s) (2 ^ Z.of_nat n).
Proof.
  intros n s H. apply rel_prime_Zpower_r; [lia|].
  apply rel_prime_sym. apply prime_rel_prime; [exact prime_2|].
  intros [q Hq]. apply Nat.odd_spec in H. destruct H as [m Hm]. lia.
Qed.

Lemma lor1_odd : forall h, Nat.odd (Nat.lor h 1) = true.
Proof.
  intros h. rewrite <- Nat.bit0_odd. rewrite Nat.lor_spec. simpl.
  rewrite orb_true_r. reflexivity.
Qed.

Lemma pow2_nz : forall n, 2 ^ n <> 0.
Proof. intros n. apply Nat.pow_nonzero. lia. Qed.

Lemma stride_inj : forall n h s j j',
  Nat.odd s = true -> j < 2 ^ n -> j' < 2 ^ n ->
  (h + j * s) mod 2 ^ n = (h + j' * s) mod 2 ^ n -> j = j'.
Proof.
  intros n h s.
  assert (W : forall j j', Nat.odd s = true -> j' < 2 ^ n -> j <= j' ->
    (h + j * s) mod 2 ^ n = (h + j' * s) mod 2 ^ n -> j = j').
  { intros j j' Ho Hj' Hle Heq.
    pose proof (pow2_nz n) as Hz.
    assert (D : (Z.of_nat (2 ^ n) | Z.of_nat s * Z.of_nat (j' - j))%Z).
    { exists (Z.of_nat ((h + j' * s) / 2 ^ n) - Z.of_nat ((h + j * s) / 2 ^ n))%Z.
      pose proof (Nat.div_mod (h + j * s) (2 ^ n) Hz) as E1.
      pose proof (Nat.div_mod (h + j' * s) (2 ^ n) Hz) as E2.
      rewrite Heq in E1.
      nia. }
    rewrite Nat2Z.inj_pow in D.
    apply Gauss in D; [|apply rel_prime_sym; apply odd_rel_prime; exact Ho].
    rewrite <- (Nat2Z.inj_pow 2 n) in D.
    destruct (Nat.eq_dec j j') as [E|E]; [exact E|].
    apply Z.divide_pos_le in D; lia. }
  intros j j' Ho Hj Hj' Heq. destruct (Nat.le_ge_cases j j') as [L|L].
  - apply W; auto.
  - symmetry. apply W; auto.
Qed.

Lemma stride_surj : forall n h s e,
  Nat.odd s = true -> e < 2 ^ n -> exists j, j < 2 ^ n /\ (h + j * s) mod 2 ^ n = e.
Proof.
  intros n h s e Ho He.
  assert (F : bFun (2 ^ n) (fun j => (h + j * s) mod 2 ^ n)).
  { intros x _. apply Nat.mod_upper_bound. apply pow2_nz. }
  assert (I : bInjective (2 ^ n) (fun j => (h + j * s) mod 2 ^ n)).
  { intros x y Hx Hy E. eapply stride_inj; eauto. }
  apply (bInjective_bSurjective F) in I. destruct (I e He) as [x [Hx E]].
  exists x. auto.
Qed.

Section Proofs.
  Variable A : Type.
  Variable same : A -> A -> bool.
  Variable hash1 hash2 : A -> nat.
  Hypothesis same_refl : forall a, same a a = true.
  Hypothesis same_sym : forall a b, same a b = same b a.
  Hypothesis same_trans : forall a b c, same a b = true -> same b c = true -> same a c = true.
  Hypothesis hash1_ok : forall a b, same a b = true -> hash1 a = hash1 b.
  Hypothesis hash2_ok : forall a b, same a b = true -> hash2 a = hash2 b.

  Notation slots := (list (slot A)).
  Notation probe := (probe A same).
  Notation find_slot := (find_slot A same hash1 hash2).
  Notation find_slot_fuel := (find_slot_fuel A same hash1 hash2).
  Notation step_of := (step_of A hash2).

  Definition path (sz : nat) (k : A) (j : nat) : nat :=
    (hash1 k + j * step_of k) mod sz.

  Definition pow2 (sz : nat) : Prop := exists n, sz = 2 ^ n.

  Lemma pow2_pos : forall sz, pow2 sz -> 0 < sz.
  Proof. intros sz [n ->]. pose proof (pow2_nz n). lia. Qed.

  Lemma path_same : forall sz a b j, same a b = true -> path sz a j = path sz b j.
  Proof.
    intros sz a b j H. unfold path, M_Hash.step_of.
    rewrite (hash1_ok a b H), (hash2_ok a b H). reflexivity.
  Qed.

  Lemma path_lt : forall sz k j, 0 < sz -> path sz k j < sz.
  Proof. intros. unfold path. apply Nat.mod_upper_bound. lia. Qed.

  Lemma path_0 : forall sz k, path sz k 0 = hash1 k mod sz.
  Proof. intros. unfold path. simpl. rewrite Nat.add_0_r. reflexivity. Qed.

  Lemma path_S : forall sz k j, 0 < sz -> (path sz k j + step_of k) mod sz = path sz k (S j).
  Proof.
    intros sz k j H. unfold path. rewrite Nat.add_mod_idemp_l by lia. f_equal. lia.
  Qed.

  Lemma path_inj : forall sz k j j', pow2 sz -> j < sz -> j' < sz ->
    path sz k j = path sz k j' -> j = j'.
  Proof.
    intros sz k j j' [n ->] Hj Hj' E.
    eapply (stride_inj n); eauto. apply lor1_odd.
  Qed.

  Lemma path_surj : forall sz k e, pow2 sz -> e < sz -> exists j, j < sz /\ path sz k j = e.
  Proof.
    intros sz k e [n ->] He. apply stride_surj; auto. apply lor1_odd.
  Qed.

  Lemma path_period : forall sz k j, 0 < sz -> path sz k j = path sz k (j mod sz).
  Proof.
    intros sz k j H. unfold path.
    rewrite (Nat.div_mod j sz) at 1 by lia.
    replace (hash1 k + (sz * (j / sz) + j mod sz) * step_of k)
      with (hash1 k + j mod sz * step_of k + (j / sz * step_of k) * sz) by lia.
    rewrite Nat.mod_add by lia. reflexivity.
  Qed.

  Definition passed (v : slots) (k : A) (i : nat) : Prop :=
    get v i <> Empty /\ forall b, get v i = Live b -> same k b = false.

  Lemma probe_char : forall (v : slots) sz k fuel j del, 0 < sz ->
    match probe v sz k (step_of k) (path sz k j) del fuel with
    | None => forall j', j <= j' < j + fuel -> passed v k (path sz k j')
    | Some s => exists m, j <= m < j + fuel /\
        (forall j', j <= j' < m -> passed v k (path sz k j')) /\
        ((exists b, get v (path sz k m) = Live b /\ same k b = true /\ s = path sz k m) \/
         (get v (path sz k m) = Empty /\
          match del with
          | Some d => s = d
          | None => exists d, j <= d <= m /\ s = path sz k d /\ vacant (get v s) = true
          end))
    end.
  Proof.
    intros v sz k fuel. induction fuel as [|fuel IH]; intros j del Hsz; cbn [M_Hash.probe].
    - intros j' Hj'. lia.
    - destruct (get v (path sz k j)) as [| |b] eqn:Eg.
      + exists j. split; [lia|]. split; [intros; lia|]. right. split; [exact Eg|].
        destruct del as [d|]; [reflexivity|]. exists j. rewrite Eg. repeat split; lia.
      + rewrite path_S by exact Hsz.
        assert (Pj : passed v k (path sz k j)).
        { split; [congruence|]. intros b Hb. congruence. }
        specialize (IH (S j) (match del with Some d => Some d | None => Some (path sz k j) end) Hsz).
        destruct (probe v sz k (step_of k) (path sz k (S j)) _ fuel) as [s|].
        * destruct IH as [m [Hm [Hp Hc]]]. exists m. split; [lia|]. split.
          { intros j' Hj'. destruct (Nat.eq_dec j j') as [->|]; [exact Pj|]. apply Hp. lia. }
          destruct Hc as [Hc|[He Hd]]; [left; exact Hc|]. right. split; [exact He|].
          destruct del as [d|]; [exact Hd|]. exists j. subst s. rewrite Eg. repeat split; lia.
        * intros j' Hj'. destruct (Nat.eq_dec j j') as [->|]; [exact Pj|]. apply IH. lia.
      + destruct (same k b) eqn:Es.
        * exists j. split; [lia|]. split; [intros; lia|]. left. exists b. auto.
        * rewrite path_S by exact Hsz.
          assert (Pj : passed v k (path sz k j)).
          { split; [congruence|]. intros b' Hb. congruence. }
          specialize (IH (S j) del Hsz).
          destruct (probe v sz k (step_of k) (path sz k (S j)) del fuel) as [s|].
          { destruct IH as [m [Hm [Hp Hc]]]. exists m. split; [lia|]. split.
            - intros j' Hj'. destruct (Nat.eq_dec j j') as [->|]; [exact Pj|]. apply Hp. lia.
            - destruct Hc as [Hc|[He Hd]]; [left; exact Hc|]. right. split; [exact He|].
              destruct del as [d|]; [exact Hd|].
              destruct Hd as [d [Hd1 Hd2]]. exists d. split; [lia|exact Hd2]. }
          { intros j' Hj'. destruct (Nat.eq_dec j j') as [->|]; [exact Pj|]. apply IH. lia. }
  Qed.

  (** If [sz] iterations do not decide, none do: the C loop runs forever. *)
  Lemma find_slot_loops : forall (v : slots) sz k, 0 < sz ->
    find_slot v sz k = None -> forall fuel, find_slot_fuel fuel v sz k = None.
  Proof.
    intros v sz k Hsz H fuel. unfold M_Hash.find_slot, M_Hash.find_slot_fuel in *.
    rewrite <- path_0 in *.
    pose proof (probe_char v sz k sz 0 None Hsz) as C. rewrite H in C.
    assert (All : forall j, passed v k (path sz k j)).
    { intros j. rewrite path_period by exact Hsz. apply C.
      pose proof (Nat.mod_upper_bound j sz). lia. }
    pose proof (probe_char v sz k fuel 0 None Hsz) as C'.
    destruct (probe v sz k (step_of k) (path sz k 0) None fuel) as [s|]; [|reflexivity].
    destruct C' as [m [_ [_ [[b [Hb [Hs _]]]|[He _]]]]].
    - destruct (All m) as [_ Hn]. rewrite (Hn b Hb) in Hs. discriminate.
    - destruct (All m) as [Hn _]. contradiction.
  Qed.

  Definition wf (v : slots) (sz : nat) : Prop :=
    length v = sz /\
    forall i a, get v i = Live a ->
      exists m, m < sz /\ path sz a m = i /\
                forall j', j' < m -> passed v a (path sz a j').

  Fixpoint nE (v : slots) : nat :=
    match v with [] => 0 | Empty :: v' => S (nE v') | _ :: v' => nE v' end.

  Lemma nE_pos : forall v, 0 < nE v -> exists e, e < length v /\ get v e = Empty.
  Proof.
    induction v as [|s v IH]; simpl; intros H; [lia|].
    destruct s as [| |a].
    - exists 0. split; [lia|reflexivity].
    - destruct (IH H) as [e [He Hg]]. exists (S e). split; [lia|exact Hg].
    - destruct (IH H) as [e [He Hg]]. exists (S e). split; [lia|exact Hg].
  Qed.

  Lemma get_lt : forall (v : slots) i a, get v i = Live a -> i < length v.
  Proof.
    intros v i a H. destruct (Nat.lt_ge_cases i (length v)) as [L|L]; [exact L|].
    unfold get in H. rewrite nth_overflow in H by lia. discriminate.
  Qed.

  Lemma wf_unique : forall v sz i i' a b, wf v sz ->
    get v i = Live a -> get v i' = Live b -> same a b = true -> i = i'.
  Proof.
    intros v sz i i' a b [_ W] Ha Hb Hs.
    destruct (W i a Ha) as [m [_ [Pm Qm]]].
    destruct (W i' b Hb) as [m' [_ [Pm' Qm']]].
    destruct (Nat.lt_trichotomy m m') as [L|[L|L]].
    - destruct (Qm' m L) as [_ Q]. rewrite <- (path_same sz a b m Hs), Pm in Q.
      specialize (Q a Ha). rewrite same_sym, Hs in Q. discriminate.
    - subst m'. rewrite <- Pm, <- Pm'. apply path_same. exact Hs.
    - destruct (Qm m' L) as [_ Q]. rewrite (path_same sz a b m' Hs), Pm' in Q.
      specialize (Q b Hb). rewrite Hs in Q. discriminate.
  Qed.

  Definition hit (v : slots) (k : A) (s : nat) : Prop :=
    exists b, get v s = Live b /\ same k b = true.
  Definition miss (v : slots) (sz : nat) (k : A) (s : nat) : Prop :=
    vacant (get v s) = true /\
    (forall i b, get v i = Live b -> same k b = false) /\
    exists m, m < sz /\ path sz k m = s /\ forall j', j' < m -> get v (path sz k j') <> Empty.

  Lemma find_spec : forall v sz k, pow2 sz -> wf v sz -> 0 < nE v ->
    exists s, find_slot v sz k = Some s /\ s < sz /\ (hit v k s \/ miss v sz k s).
  Proof.
    intros v sz k Hp Hw He. pose proof (pow2_pos sz Hp) as Hsz.
    unfold M_Hash.find_slot, M_Hash.find_slot_fuel. rewrite <- path_0.
    pose proof (probe_char v sz k sz 0 None Hsz) as C.
    destruct (nE_pos v He) as [e [Hel Hee]].
    destruct Hw as [Hlen W]. rewrite Hlen in Hel.
    destruct (path_surj sz k e Hp Hel) as [je [Hje Pje]].
    destruct (probe v sz k (step_of k) (path sz k 0) None sz) as [s|].
    - exists s. split; [reflexivity|].
      destruct C as [m [Hm [Hpass [[b [Hb [Hs ->]]]|[Hem [d [Hd [-> Hv]]]]]]]].
      + split; [apply path_lt; exact Hsz|]. left. exists b. auto.
      + split; [apply path_lt; exact Hsz|]. right. split; [exact Hv|]. split.
        * intros i b Hb. destruct (same k b) eqn:Es; [|reflexivity]. exfalso.
          destruct (W i b Hb) as [mb [Hmb [Pmb Qmb]]].
          destruct (Nat.lt_trichotomy mb m) as [L|[L|L]].
          -- destruct (Hpass mb ltac:(lia)) as [_ Q].
             rewrite (path_same sz k b mb Es), Pmb in Q. specialize (Q b Hb). congruence.
          -- subst mb. rewrite (path_same sz k b m Es), Pmb in Hem. congruence.
          -- destruct (Qmb m L) as [Q _]. rewrite <- (path_same sz k b m Es) in Q. contradiction.
        * exists d. split; [lia|]. split; [reflexivity|].
          intros j' Hj'. apply (Hpass j'). lia.
    - exfalso. destruct (C je ltac:(lia)) as [Q _]. rewrite Pje in Q. contradiction.
  Qed.

  Lemma get_set_eq : forall (v : slots) i x, i < length v -> get (set v i x) i = x.
  Proof. intros. apply nth_set_eq. assumption. Qed.
  Lemma get_set_neq : forall (v : slots) i j x, i <> j -> get (set v i x) j = get v j.
  Proof. intros. apply nth_set_neq. assumption. Qed.

  Lemma wf_insert : forall v sz a s, pow2 sz -> wf v sz -> s < sz ->
    hit v a s \/ miss v sz a s -> wf (set v s (Live a)) sz.
  Proof.
    intros v sz a s Hp Hw Hs HM. pose proof Hw as [Hlen W].
    split; [rewrite set_length; exact Hlen|].
    intros i c Hc. destruct (Nat.eq_dec s i) as [<-|Hne].
    - rewrite get_set_eq in Hc by lia. inversion Hc; subst c. clear Hc.
      destruct HM as [[b [Hb Hsb]]|[Hv [Hno [m [Hm [Pm Qm]]]]]].
      + destruct (W s b Hb) as [m [Hm [Pm Qm]]]. exists m. split; [exact Hm|].
        split; [rewrite (path_same sz a b m Hsb); exact Pm|].
        intros j' Hj'. rewrite (path_same sz a b j' Hsb).
        destruct (Qm j' Hj') as [Q1 Q2].
        assert (N : s <> path sz b j').
        { intros E. rewrite <- E in Q2. specialize (Q2 b Hb). rewrite same_refl in Q2. discriminate. }
        unfold passed. rewrite get_set_neq by exact N. split; [exact Q1|].
        intros d Hd. specialize (Q2 d Hd). destruct (same a d) eqn:E; [|reflexivity].
        rewrite same_sym in Hsb. rewrite (same_trans b a d Hsb E) in Q2. discriminate.
      + exists m. split; [exact Hm|]. split; [exact Pm|]. intros j' Hj'.
        assert (N : s <> path sz a j').
        { intros E. rewrite <- Pm in E. apply path_inj in E; auto; lia. }
        unfold passed. rewrite get_set_neq by exact N. split; [apply Qm; exact Hj'|].
        intros d Hd. eapply Hno. exact Hd.
    - rewrite get_set_neq in Hc by exact Hne.
      destruct (W i c Hc) as [m [Hm [Pm Qm]]]. exists m. split; [exact Hm|]. split; [exact Pm|].
      intros j' Hj'. destruct (Qm j' Hj') as [Q1 Q2]. unfold passed.
      destruct (Nat.eq_dec s (path sz c j')) as [E|E].
      + rewrite <- E. rewrite get_set_eq by lia. split; [discriminate|].
        intros d Hd. inversion Hd; subst d. clear Hd. rewrite <- E in Q2.
        destruct (same c a) eqn:Eca; [|reflexivity]. exfalso.
        destruct HM as [[b [Hb Hsb]]|[_ [Hno _]]].
        * specialize (Q2 b Hb). rewrite (same_trans c a b Eca Hsb) in Q2. discriminate.
        * specialize (Hno i c Hc). rewrite same_sym, Eca in Hno. discriminate.
      + rewrite get_set_neq by exact E. split; assumption.
  Qed.

  Lemma wf_delete : forall v sz s, wf v sz -> s < sz -> vacant (get v s) = false ->
    wf (set v s Deleted) sz.
  Proof.
    intros v sz s [Hlen W] Hs Hv. split; [rewrite set_length; exact Hlen|].
    intros i c Hc. destruct (Nat.eq_dec s i) as [<-|Hne].
    - rewrite get_set_eq in Hc by lia. discriminate.
    - rewrite get_set_neq in Hc by exact Hne.
      destruct (W i c Hc) as [m [Hm [Pm Qm]]]. exists m. split; [exact Hm|]. split; [exact Pm|].
      intros j' Hj'. destruct (Qm j' Hj') as [Q1 Q2]. unfold passed.
      destruct (Nat.eq_dec s (path sz c j')) as [E|E].
      + rewrite <- E. rewrite get_set_eq by lia. split; [discriminate|]. intros d Hd. discriminate.
      + rewrite get_set_neq by exact E. split; assumption.
  Qed.

  Lemma get_repeat : forall sz i, get (repeat (@Empty A) sz) i = Empty \/ get (repeat (@Empty A) sz) i = Deleted.
  Proof.
    intros sz. induction sz as [|sz IH]; intros [|i]; simpl; auto. apply IH.
  Qed.

  Lemma wf_empty : forall sz, wf (repeat Empty sz) sz.
  Proof.
    intros sz. split; [apply repeat_length|]. intros i a H.
    destruct (get_repeat sz i) as [E|E]; rewrite E in H; discriminate.
  Qed.

  Lemma nE_repeat : forall sz, nE (repeat Empty sz) = sz.
  Proof. induction sz; simpl; auto. Qed.
  Lemma lives_repeat : forall sz, lives (repeat (@Empty A) sz) = [].
  Proof. induction sz; simpl; auto. Qed.

  Lemma lives_set_vacant : forall (v : slots) s a, s < length v -> vacant (get v s) = true ->
    Permutation (lives (set v s (Live a))) (a :: lives v).
  Proof.
    unfold get. induction v as [|x v IH]; intros [|s] a Hs Hv; simpl in *; try lia.
    - destruct x; simpl in *; auto. discriminate.
    - destruct x as [| |b]; simpl.
      + apply IH; [lia|exact Hv].
      + apply IH; [lia|exact Hv].
      + eapply Permutation_trans; [apply perm_skip; apply IH; [lia|exact Hv]|]. apply perm_swap.
  Qed.

  Lemma lives_set_live : forall (v : slots) s a b, get v s = Live b ->
    Permutation (b :: lives (set v s (Live a))) (a :: lives v).
  Proof.
    unfold get. induction v as [|x v IH]; intros [|s] a b H; simpl in *; try discriminate.
    - subst x. simpl. apply perm_swap.
    - destruct x as [| |c]; simpl.
      + apply IH. exact H.
      + apply IH. exact H.
      + eapply Permutation_trans; [apply perm_swap|].
        eapply Permutation_trans; [apply perm_skip; apply (IH s a b H)|]. apply perm_swap.
  Qed.

  Lemma lives_set_deleted : forall (v : slots) s b, get v s = Live b ->
    Permutation (b :: lives (set v s Deleted)) (lives v).
  Proof.
    unfold get. induction v as [|x v IH]; intros [|s] b H; simpl in *; try discriminate.
    - subst x. simpl. auto.
    - destruct x as [| |c]; simpl.
      + apply IH. exact H.
      + apply IH. exact H.
      + eapply Permutation_trans; [apply perm_swap|]. apply perm_skip. apply (IH s b H).
  Qed.

  Lemma nE_set : forall v s x, s < length v -> x <> Empty ->
    nE (set v s x) = match get v s with Empty => nE v - 1 | _ => nE v end.
  Proof.
    unfold get. induction v as [|y v IH]; intros [|s] x Hs Hx; simpl in *; try lia.
    - destruct x; [contradiction| |]; destruct y; simpl; lia.
    - rewrite (IH s x ltac:(lia) Hx).
      destruct y as [| |c]; destruct (nth s v Deleted) eqn:E; simpl; try lia.
      assert (0 < nE v); [|lia].
      clear - E Hs. revert s E Hs. induction v as [|z v IH]; intros [|s] E Hs; simpl in *; try lia.
      + subst z. lia.
      + specialize (IH s E ltac:(lia)). destruct z; lia.
  Qed.

  Lemma count_le : forall (v : slots), length (lives v) + nE v <= length v.
  Proof. induction v as [|[| |a] v IH]; simpl; lia. Qed.

  Lemma in_lives : forall (v : slots) a, In a (lives v) <-> exists i, get v i = Live a.
  Proof.
    induction v as [|x v IH]; intros a; simpl.
    - split; [tauto|]. intros [[|i] H]; discriminate.
    - destruct x as [| |b]; simpl; rewrite IH; split.
      + intros [i H]. exists (S i). exact H.
      + intros [[|i] H]; [discriminate|]. exists i. exact H.
      + intros [i H]. exists (S i). exact H.
      + intros [[|i] H]; [discriminate|]. exists i. exact H.
      + intros [->|[i H]]; [exists 0; reflexivity|]. exists (S i). exact H.
      + intros [[|i] H]; [left; unfold get in H; simpl in H; congruence|]. right. exists i. exact H.
  Qed.

  Fixpoint distinct (l : list A) : Prop :=
    match l with
    | [] => True
    | a :: l' => (forall b, In b l' -> same a b = false) /\ distinct l'
    end.

  Lemma distinct_perm : forall l l', Permutation l l' -> distinct l -> distinct l'.
  Proof.
    intros l l' H. induction H as [|x l l' HP IH|x y l|l1 l2 l3 H1 IH1 H2 IH2]; simpl; intros D.
    - exact I.
    - destruct D as [D1 D2]. split; [|apply IH; exact D2].
      intros b Hb. apply D1. eapply Permutation_in; [apply Permutation_sym; exact HP|exact Hb].
    - destruct D as [D1 [D2 D3]]. split.
      + intros b [->|Hb]; [|apply D2; exact Hb]. rewrite same_sym. apply D1. left. reflexivity.
      + split; [|exact D3]. intros b Hb. apply D1. right. exact Hb.
    - apply IH2. apply IH1. exact D.
  Qed.

  Lemma lives_distinct_gen : forall (v : slots),
    (forall i j a b, get v i = Live a -> get v j = Live b -> same a b = true -> i = j) ->
    distinct (lives v).
  Proof.
    induction v as [|x v IH]; intros U; simpl; [exact I|].
    assert (U' : forall i j a b, get v i = Live a -> get v j = Live b -> same a b = true -> i = j).
    { intros i j a b Ha Hb Hs. specialize (U (S i) (S j) a b Ha Hb Hs). lia. }
    destruct x as [| |a]; [apply IH; exact U'|apply IH; exact U'|]. simpl. split; [|apply IH; exact U'].
    intros b Hb. apply in_lives in Hb. destruct Hb as [j Hj].
    destruct (same a b) eqn:E; [|reflexivity].
    specialize (U 0 (S j) a b eq_refl Hj E). discriminate.
  Qed.

  Lemma wf_distinct : forall v sz, wf v sz -> distinct (lives v).
  Proof.
    intros v sz W. apply lives_distinct_gen. intros i j a b Ha Hb Hs. eapply wf_unique; eauto.
  Qed.

  Lemma reinsert_spec : forall old v sz, pow2 sz -> wf v sz ->
    nE v + length (lives v) = sz ->
    length (lives old) + length (lives v) < sz ->
    distinct (lives old ++ lives v) ->
    exists v', reinsert A same hash1 hash2 old v sz = Some v' /\ wf v' sz /\
      nE v' + length (lives v') = sz /\ Permutation (lives v') (lives old ++ lives v).
  Proof.
    induction old as [|x old IH]; intros v sz Hp Hw He Hl Hd; simpl.
    - exists v. repeat split; auto; apply Hw.
    - destruct x as [| |a]; [apply IH; auto|apply IH; auto|].
      simpl in Hl, Hd. destruct Hd as [Hd1 Hd2].
      destruct (find_spec v sz a Hp Hw ltac:(lia)) as [s [Hs [Hlt HM]]].
      rewrite Hs.
      assert (HM' : miss v sz a s).
      { destruct HM as [[b [Hb Hsb]]|HM]; [|exact HM]. exfalso.
        specialize (Hd1 b). rewrite Hsb in Hd1. discriminate Hd1.
        apply in_or_app. right. apply in_lives. exists s. exact Hb. }
      pose proof (proj1 Hw) as Hlen.
      assert (HE : get v s = Empty).
      { destruct HM' as [Hv _]. destruct (get v s) as [| |b] eqn:Eg; [reflexivity| |discriminate].
        exfalso.
        assert (G : forall w i, nE w + length (lives w) = length w -> i < length w -> get w i <> Deleted).
        { clear. induction w as [|y w IHw]; intros [|i] H Hi; simpl in *; try lia.
          - pose proof (count_le w). destruct y; try discriminate. lia.
          - pose proof (count_le w). destruct y; simpl in *; try (apply IHw; lia). }
        apply (G v s); try lia. exact Eg. }
      assert (Hperm : Permutation (lives (set v s (Live a))) (a :: lives v)).
      { apply lives_set_vacant; [lia|]. rewrite HE. reflexivity. }
      assert (Hplen := Permutation_length Hperm). simpl in Hplen.
      destruct (IH (set v s (Live a)) sz Hp) as [v' [R1 [R2 [R3 R4]]]].
      + apply wf_insert; auto.
      + rewrite nE_set by (try lia; discriminate). rewrite HE. lia.
      + lia.
      + eapply distinct_perm.
        * apply Permutation_sym. eapply Permutation_trans; [apply Permutation_app_head; exact Hperm|].
          apply Permutation_sym. apply Permutation_middle.
        * simpl. split; assumption.
      + exists v'. repeat split; auto; try apply R2.
        eapply Permutation_trans; [exact R4|].
        eapply Permutation_trans; [apply Permutation_app_head; exact Hperm|].
        apply Permutation_sym. apply (Permutation_middle (lives old) (lives v) a).
  Qed.

  (** The invariant of every table between operations. *)
  Record Inv (t : ht A) : Prop := mkInv {
    inv_pow : pow2 (size t);
    inv_wf : wf (vec t) (size t);
    inv_fill : fill t = length (lives (vec t));
    inv_empty : empty t = nE (vec t);
    inv_cap : cap t = size t - size t / 16;
    inv_room : 0 < nE (vec t) }.

  Lemma Inv_init : forall n, Inv (init_sized (2 ^ n)).
  Proof.
    intros n. constructor; simpl.
    - exists n. reflexivity.
    - apply wf_empty.
    - rewrite lives_repeat. reflexivity.
    - rewrite nE_repeat. reflexivity.
    - reflexivity.
    - rewrite nE_repeat. pose proof (pow2_nz n). lia.
  Qed.

  Lemma pow2_16 : forall sz, pow2 sz -> 16 <= sz -> 1 <= sz / 16.
  Proof.
    intros sz _ H. apply (Nat.div_le_mono 16 sz 16) in H; [|lia]. exact H.
  Qed.

  Lemma rehash_spec : forall t, pow2 (size t) -> wf (vec t) (size t) ->
    fill t = length (lives (vec t)) -> cap t = size t - size t / 16 -> 16 <= size t ->
    exists t', rehash A same hash1 hash2 t = Some t' /\ Inv t' /\ size t <= size t' /\
               Permutation (lives (vec t')) (lives (vec t)).
  Proof.
    intros t Hp Hw Hf Hc H16. unfold rehash.
    set (dbl := cap t <=? fill t).
    set (sz := if dbl then size t * 2 else size t).
    pose proof (count_le (vec t)) as Hcnt. rewrite (proj1 Hw) in Hcnt.
    pose proof (pow2_16 _ Hp H16) as H1.
    pose proof (Nat.div_mod (size t) 16 ltac:(lia)) as Hdm.
    assert (Hsz : pow2 sz /\ fill t < sz /\ size t <= sz).
    { unfold sz, dbl. destruct (Nat.leb_spec (cap t) (fill t)) as [L|L].
      - split; [|lia]. destruct Hp as [n ->]. exists (S n). simpl. lia.
      - split; [exact Hp|]. lia. }
    destruct Hsz as [Hp2 [Hlt Hge]].
    destruct (reinsert_spec (vec t) (repeat Empty sz) sz Hp2 (wf_empty sz)) as [v' [R1 [R2 [R3 R4]]]].
    - rewrite nE_repeat, lives_repeat. simpl. lia.
    - rewrite lives_repeat. simpl. lia.
    - rewrite lives_repeat, app_nil_r. eapply wf_distinct; eauto.
    - rewrite R1. eexists. split; [reflexivity|]. rewrite lives_repeat, app_nil_r in R4.
      pose proof (Permutation_length R4) as RL.
      split; [|split; [exact Hge|exact R4]].
      constructor; simpl; auto; try lia.
      unfold sz. destruct dbl; [reflexivity|exact Hc].
  Qed.

  Lemma insert_at_spec : forall t a s, Inv t -> s < size t ->
    hit (vec t) a s \/ miss (vec t) (size t) a s ->
    16 <= size t \/ 1 < nE (vec t) ->
    exists t', insert_at A same hash1 hash2 t a s = Some t' /\ Inv t' /\
      (16 <= size t -> 16 <= size t') /\
      (16 <= size t' \/ (size t' = size t /\ nE (vec t) - 1 <= nE (vec t'))) /\
      Permutation (lives (vec t')) (lives (set (vec t) s (Live a))).
  Proof.
    intros t a s [Hp Hw Hf He Hc Hr] Hs HM Hroom. unfold insert_at.
    set (old := get (vec t) s).
    set (t1 := mkht _ _ _ _ _).
    assert (Hlen := proj1 Hw).
    assert (W1 : wf (vec t1) (size t1)) by (apply wf_insert; auto).
    assert (F1 : fill t1 = length (lives (vec t1))).
    { simpl. unfold old. destruct (get (vec t) s) as [| |b] eqn:Eg; simpl.
      - rewrite (Permutation_length (lives_set_vacant (vec t) s a ltac:(lia) ltac:(rewrite Eg; reflexivity))).
        simpl. lia.
      - rewrite (Permutation_length (lives_set_vacant (vec t) s a ltac:(lia) ltac:(rewrite Eg; reflexivity))).
        simpl. lia.
      - pose proof (Permutation_length (lives_set_live (vec t) s a b Eg)) as PL. simpl in PL. lia. }
    assert (E1 : empty t1 = nE (vec t1)).
    { simpl. unfold old. rewrite nE_set by (try lia; discriminate).
      destruct (get (vec t) s); lia. }
    assert (E2 : match old with Empty => empty t - 1 | _ => empty t end = empty t1) by reflexivity.
    rewrite E2.
    destruct (Nat.ltb_spec (empty t1) (size t - cap t)) as [L|L].
    - assert (H16 : 16 <= size t).
      { destruct (Nat.le_gt_cases 16 (size t)) as [G|G]; [exact G|].
        rewrite Hc in L. rewrite (Nat.div_small (size t) 16 G) in L. lia. }
      destruct (rehash_spec t1 Hp W1 F1 Hc H16) as [t' [R1 [R2 [R3 R4]]]].
      exists t'. split; [exact R1|]. split; [exact R2|].
      change (size t1) with (size t) in R3. split; [lia|].
      split; [left; lia|exact R4].
    - assert (N1 : nE (vec t) - 1 <= nE (vec t1)).
      { simpl. rewrite nE_set by (try lia; discriminate). destruct (get (vec t) s); lia. }
      exists t1. split; [reflexivity|]. split; [|split; [|split; [|apply Permutation_refl]]].
      + constructor; auto. destruct Hroom as [H16|H16]; [|lia].
        rewrite <- E1. pose proof (pow2_16 _ Hp H16).
        pose proof (Nat.div_mod (size t) 16 ltac:(lia)). lia.
      + intros H16. exact H16.
      + right. split; [reflexivity|exact N1].
  Qed.

  (** ** Refinement to the finite map *)

  Definition R (t : ht A) (m : fmap A) : Prop := Permutation (lives (vec t)) m.

  Lemma find_hit : forall v sz m k s b, wf v sz -> Permutation (lives v) m ->
    get v s = Live b -> same k b = true -> m_find A same m k = Some b.
  Proof.
    intros v sz m k s b Hw HP Hb Hs. unfold m_find.
    destruct (List.find (same k) m) as [c|] eqn:E.
    - apply find_some in E. destruct E as [E1 E2].
      apply (Permutation_in _ (Permutation_sym HP)) in E1. apply in_lives in E1.
      destruct E1 as [i Hi].
      assert (i = s). { apply (wf_unique v sz i s c b Hw Hi Hb). apply (same_trans c k b); [rewrite same_sym; exact E2|exact Hs]. }
      subst i. congruence.
    - assert (In b m). { eapply Permutation_in; [exact HP|]. apply in_lives. eauto. }
      apply (find_none _ _ E) in H. congruence.
  Qed.

  Lemma find_miss : forall (v : slots) m k, Permutation (lives v) m ->
    (forall i b, get v i = Live b -> same k b = false) -> m_find A same m k = None.
  Proof.
    intros v m k HP Hno. unfold m_find. destruct (List.find (same k) m) as [c|] eqn:E; [|reflexivity].
    apply find_some in E. destruct E as [E1 E2].
    apply (Permutation_in _ (Permutation_sym HP)) in E1. apply in_lives in E1. destruct E1 as [i Hi].
    rewrite (Hno i c Hi) in E2. discriminate.
  Qed.

  Lemma filter_all : forall (f : A -> bool) l, (forall x, In x l -> f x = true) -> filter f l = l.
  Proof.
    induction l as [|a l IH]; simpl; intros H; [reflexivity|].
    rewrite (H a (or_introl eq_refl)). f_equal. apply IH. intros x Hx. apply H. right. exact Hx.
  Qed.

  Lemma Permutation_filter : forall (f : A -> bool) l l',
    Permutation l l' -> Permutation (filter f l) (filter f l').
  Proof.
    intros f l l' H. induction H as [|x l l' HP IH|x y l|l1 l2 l3 H1 IH1 H2 IH2]; simpl.
    - apply perm_nil.
    - destruct (f x); auto.
    - destruct (f x); destruct (f y); auto. apply perm_swap.
    - eapply Permutation_trans; eauto.
  Qed.

  Lemma remove_hit : forall v sz m k s b, wf v sz -> Permutation (lives v) m ->
    get v s = Live b -> same k b = true ->
    Permutation (lives (set v s Deleted)) (m_remove A same m k).
  Proof.
    intros v sz m k s b Hw HP Hb Hs. unfold m_remove.
    pose proof (lives_set_deleted v s b Hb) as HD.
    eapply Permutation_trans; [|apply Permutation_filter; eapply Permutation_trans; [exact HD|exact HP]].
    simpl. rewrite Hs. simpl. rewrite filter_all; [apply Permutation_refl|].
    intros x Hx. apply in_lives in Hx. destruct Hx as [i Hi].
    assert (Hne : s <> i).
    { intros <-. rewrite get_set_eq in Hi; [discriminate|]. eapply get_lt; eauto. }
    rewrite get_set_neq in Hi by exact Hne.
    destruct (same k x) eqn:E; [|reflexivity]. exfalso. apply Hne.
    apply (wf_unique v sz s i b x Hw Hb Hi). apply (same_trans b k x); [rewrite same_sym; exact Hs|exact E].
  Qed.

  Lemma remove_miss : forall (v : slots) m k, Permutation (lives v) m ->
    (forall i b, get v i = Live b -> same k b = false) -> m_remove A same m k = m.
  Proof.
    intros v m k HP Hno. unfold m_remove. apply filter_all. intros x Hx.
    apply (Permutation_in _ (Permutation_sym HP)) in Hx. apply in_lives in Hx.
    destruct Hx as [i Hi]. rewrite (Hno i x Hi). reflexivity.
  Qed.

  Lemma lives_set_hit_perm : forall (v : slots) s a b, get v s = Live b ->
    Permutation (lives (set v s (Live a))) (a :: lives (set v s Deleted)).
  Proof.
    intros v s a b H. apply (Permutation_cons_inv (a := b)).
    eapply Permutation_trans; [apply lives_set_live; exact H|].
    eapply Permutation_trans; [|apply perm_swap]. apply perm_skip.
    apply Permutation_sym. apply lives_set_deleted. exact H.
  Qed.

  Definition is_insert (o : op A) : nat := match o with Insert _ => 1 | _ => 0 end.
  Definition inserts (ops : list (op A)) : nat := list_sum (map is_insert ops).

  (** Room for [r] further insertions without ever filling the table. *)
  Definition good (t : ht A) (r : nat) : Prop :=
    Inv t /\ (16 <= size t \/ r < nE (vec t)).

  Lemma step_spec : forall t m o r, good t (is_insert o + r) -> R t m ->
    exists t' x, step A same hash1 hash2 t o = Some (t', x) /\ good t' r /\
      R t' (fst (m_step A same m o)) /\ out_ok A same m o x.
  Proof.
    intros t m o r [HI Hr] HR. pose proof HI as [Hp Hw Hf He Hc Hroom].
    destruct o as [k|a|k| |]; cbn [step is_insert] in *.
    - destruct (find_spec (vec t) (size t) k Hp Hw Hroom) as [s [Hs [Hlt HM]]].
      unfold find_item. rewrite Hs. eexists; eexists. split; [reflexivity|].
      split; [split; [exact HI|exact Hr]|]. split; [exact HR|]. simpl.
      destruct HM as [[b [Hb Hsb]]|[Hv [Hno _]]].
      + rewrite Hb. symmetry. eapply find_hit; eauto.
      + rewrite (find_miss (vec t) m k HR Hno). destruct (get (vec t) s); [reflexivity|reflexivity|discriminate].
    - destruct (find_spec (vec t) (size t) a Hp Hw Hroom) as [s [Hs [Hlt HM]]].
      unfold insert. rewrite Hs.
      destruct (insert_at_spec t a s HI Hlt HM ltac:(lia)) as [t' [R1 [R2 [R3 [R4 R5]]]]].
      rewrite R1. eexists; eexists. split; [reflexivity|].
      split; [split; [exact R2|lia]|].
      destruct HM as [[b [Hb Hsb]]|[Hv [Hno _]]].
      + split; simpl.
        * unfold R. eapply Permutation_trans; [exact R5|].
          eapply Permutation_trans; [eapply lives_set_hit_perm; eauto|].
          apply perm_skip. eapply remove_hit; eauto.
        * rewrite Hb. symmetry. eapply find_hit; eauto.
      + split; simpl.
        * unfold R. eapply Permutation_trans; [exact R5|].
          eapply Permutation_trans; [apply lives_set_vacant; [rewrite (proj1 Hw); exact Hlt|exact Hv]|].
          apply perm_skip. rewrite (remove_miss (vec t) m a HR Hno). exact HR.
        * rewrite (find_miss (vec t) m a HR Hno). destruct (get (vec t) s); [reflexivity|reflexivity|discriminate].
    - destruct (find_spec (vec t) (size t) k Hp Hw Hroom) as [s [Hs [Hlt HM]]].
      unfold delete. rewrite Hs.
      destruct HM as [[b [Hb Hsb]]|[Hv [Hno _]]].
      + rewrite Hb. eexists; eexists. split; [reflexivity|].
        assert (NE : nE (set (vec t) s Deleted) = nE (vec t)).
        { rewrite nE_set; [rewrite Hb; reflexivity| |discriminate]. rewrite (proj1 Hw). exact Hlt. }
        split; [split|split].
        * constructor; simpl; auto.
          -- apply wf_delete; auto. rewrite Hb. reflexivity.
          -- pose proof (Permutation_length (lives_set_deleted (vec t) s b Hb)) as PL. simpl in PL. lia.
          -- rewrite NE. exact He.
          -- rewrite NE. exact Hroom.
        * simpl. rewrite NE. exact Hr.
        * simpl. unfold R. simpl. eapply remove_hit; eauto.
        * simpl. symmetry. eapply find_hit; eauto.
      + assert (EQ : match get (vec t) s with
          | Live b => Some (mkht (set (vec t) s Deleted) (size t) (cap t) (fill t - 1) (empty t), Some b)
          | _ => Some (t, None) end = Some (t, None)).
        { destruct (get (vec t) s); [reflexivity|reflexivity|discriminate]. }
        rewrite EQ. eexists; eexists. split; [reflexivity|].
        split; [split; [exact HI|exact Hr]|]. simpl. split.
        * rewrite (remove_miss (vec t) m k HR Hno). exact HR.
        * symmetry. eapply find_miss; eauto.
    - eexists; eexists. split; [reflexivity|].
      pose proof (count_le (vec t)) as CL. rewrite (proj1 Hw) in CL.
      pose proof (pow2_pos _ Hp) as PP. split; [split|split].
      + constructor; simpl; auto.
        * apply wf_empty.
        * rewrite lives_repeat. reflexivity.
        * rewrite nE_repeat. reflexivity.
        * rewrite nE_repeat. exact PP.
      + simpl. rewrite nE_repeat. lia.
      + unfold R. simpl. rewrite lives_repeat. apply perm_nil.
      + exact I.
    - eexists; eexists. split; [reflexivity|].
      split; [split; [exact HI|exact Hr]|]. split; [exact HR|]. exact HR.
  Qed.

  Lemma run_spec : forall ops t m, good t (inserts ops) -> R t m ->
    exists t' rs, run A same hash1 hash2 t ops = Some (t', rs) /\
      good t' 0 /\ R t' (m_final A same m ops) /\ outs_ok A same m ops rs.
  Proof.
    induction ops as [|o ops IH]; intros t m HG HR; simpl.
    - exists t, []. split; [reflexivity|]. split; [exact HG|]. split; [exact HR|exact I].
    - change (inserts (o :: ops)) with (is_insert o + inserts ops) in HG.
      destruct (step_spec t m o (inserts ops) HG HR) as [t1 [x [S1 [S2 [S3 S4]]]]].
      rewrite S1. destruct (IH t1 _ S2 S3) as [t2 [rs [Q1 [Q2 [Q3 Q4]]]]].
      rewrite Q1. exists t2, (x :: rs). split; [reflexivity|]. split; [exact Q2|].
      split; [exact Q3|]. split; assumption.
  Qed.

  Lemma run_from_init : forall n ops, 16 <= 2 ^ n \/ inserts ops < 2 ^ n ->
    exists t' rs, run A same hash1 hash2 (init_sized (2 ^ n)) ops = Some (t', rs) /\
      good t' 0 /\ R t' (m_final A same [] ops) /\ outs_ok A same [] ops rs.
  Proof.
    intros n ops H. apply run_spec.
    - split; [apply Inv_init|]. simpl. rewrite nE_repeat. exact H.
    - unfold R. simpl. rewrite lives_repeat. apply perm_nil.
  Qed.

  Lemma run_fill : forall n ops t' rs, 16 <= 2 ^ n \/ inserts ops < 2 ^ n ->
    run A same hash1 hash2 (init_sized (2 ^ n)) ops = Some (t', rs) ->
    fill t' = length (m_final A same [] ops) /\
    (exists i, i < size t' /\ get (vec t') i = Empty) /\
    (forall key, find_slot (vec t') (size t') key <> None).
  Proof.
    intros n ops t' rs H E.
    destruct (run_from_init n ops H) as [t2 [rs2 [Q1 [[Q2 _] [Q3 _]]]]].
    rewrite E in Q1. inversion Q1; subst t2 rs2. clear Q1.
    destruct Q2 as [Hp Hw Hf He Hc Hroom]. split; [|split].
    - rewrite Hf. apply Permutation_length. exact Q3.
    - destruct (nE_pos _ Hroom) as [i [Hi Hg]]. exists i. split; [|exact Hg].
      rewrite <- (proj1 Hw). exact Hi.
    - intros key. destruct (find_spec (vec t') (size t') key Hp Hw Hroom) as [s [Hs _]].
      rewrite Hs. discriminate.
  Qed.
End Proofs.

(** ** round_up_2 *)

Definition smeared (n : N) (w : N) (m : N) : Prop :=
  forall i, N.testbit m i = true <-> exists d, (d < w)%N /\ N.testbit n (i + d) = true.

Lemma smear_step : forall n w m, smeared n w m -> smeared n (w + w) (N.lor m (N.shiftr m w)).
Proof.
  intros n w m H i. rewrite N.lor_spec, N.shiftr_spec', orb_true_iff, (H i), (H (i + w)%N). split.
  - intros [[d [D1 D2]]|[d [D1 D2]]].
    + exists d. split; [lia|exact D2].
    + exists (w + d)%N. split; [lia|]. replace (i + (w + d))%N with (i + w + d)%N by lia. exact D2.
  - intros [d [D1 D2]]. destruct (N.lt_ge_cases d w) as [L|L].
    + left. exists d. auto.
    + right. exists (d - w)%N. split; [lia|]. rewrite <- N.add_assoc.
      replace (i + (w + (d - w)))%N with (i + d)%N by lia. exact D2.
Qed.

Lemma round_up_2_pow : forall n, (n < 2 ^ 63)%N -> round_up_2 n = (2 ^ N.size n)%N.
Proof.
  intros n Hn. unfold round_up_2.
  assert (S0 : smeared n 1 n).
  { intros i. split.
    - intros H. exists 0%N. split; [lia|]. rewrite N.add_0_r. exact H.
    - intros [d [D1 D2]]. assert (d = 0%N) by lia. subst d. rewrite N.add_0_r in D2. exact D2. }
  assert (S1 := smear_step _ _ _ S0). simpl (1 + 1)%N in S1.
  assert (S2 := smear_step _ _ _ S1). simpl (2 + 2)%N in S2.
  assert (S3 := smear_step _ _ _ S2). simpl (4 + 4)%N in S3.
  assert (S4 := smear_step _ _ _ S3). simpl (8 + 8)%N in S4.
  assert (S5 := smear_step _ _ _ S4). simpl (16 + 16)%N in S5.
  assert (S6 := smear_step _ _ _ S5). simpl (32 + 32)%N in S6.
  cbv zeta. set (m := N.lor _ (N.shiftr _ 32)) in *. clearbody m.
  clear S0 S1 S2 S3 S4 S5.
  assert (Hsz : (N.size n <= 63)%N).
  { destruct (N.eq_dec n 0) as [->|Hnz]; [simpl; lia|].
    rewrite N.size_log2 by exact Hnz. apply N.log2_lt_pow2 in Hn; lia. }
  assert (Em : m = N.ones (N.size n)).
  { apply N.bits_inj. intros i. destruct (N.testbit m i) eqn:E; symmetry.
    - apply S6 in E. destruct E as [d [D1 D2]]. apply N.ones_spec_low.
      destruct (N.eq_dec n 0) as [->|Hnz]; [rewrite N.bits_0 in D2; discriminate|].
      rewrite N.size_log2 by exact Hnz.
      destruct (N.lt_ge_cases i (N.succ (N.log2 n))) as [L|L]; [exact L|].
      rewrite N.bits_above_log2 in D2 by lia. discriminate.
    - destruct (N.lt_ge_cases i (N.size n)) as [L|L]; [|apply N.ones_spec_high; exact L].
      exfalso. destruct (N.eq_dec n 0) as [->|Hnz]; [simpl in L; lia|].
      rewrite N.size_log2 in L, Hsz by exact Hnz.
      assert (N.testbit m i = true); [|congruence].
      apply S6. exists (N.log2 n - i)%N. split; [lia|].
      replace (i + (N.log2 n - i))%N with (N.log2 n) by lia. apply N.bit_log2. exact Hnz. }
  rewrite Em, N.ones_equiv.
  assert (P : (0 < 2 ^ N.size n)%N) by (apply N.neq_0_lt_0; apply N.pow_nonzero; lia).
  rewrite N.add_1_r, N.succ_pred by lia. apply N.mod_small.
  apply N.pow_lt_mono_r; lia.
Qed.

Lemma hash_init_pow : forall A n, (n < 2 ^ 63)%N ->
  hash_init A n = init_sized (2 ^ N.to_nat (N.size n)).
Proof.
  intros A n H. unfold hash_init. rewrite round_up_2_pow by exact H.
  rewrite N2Nat.inj_pow. reflexivity.
Qed.

Lemma size_ge_16 : forall n, (8 <= n)%N -> 16 <= 2 ^ N.to_nat (N.size n).
Proof.
  intros n H. change 16 with (2 ^ 4). apply Nat.pow_le_mono_r; [lia|].
  rewrite N.size_log2 by lia.
  assert (N.log2 8 <= N.log2 n)%N by (apply N.log2_le_mono; exact H).
  change (N.log2 8) with 3%N in H0. lia.
Qed.

Lemma size_gt : forall n, N.to_nat n < 2 ^ N.to_nat (N.size n).
Proof.
  intros n. change 2 with (N.to_nat 2). rewrite <- N2Nat.inj_pow.
  pose proof (N.size_gt n). lia.
Qed.
