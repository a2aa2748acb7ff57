(** Proofs about the debugger model: the breakpoint list. *)
From Verif Require Import Base.
From Verif Require Import M_Debugger S_Debugger.
From Coq Require Import Sorting.Sorted.
Open Scope nat_scope.

Notation entry := (nat * nat * N)%type.
Definition e_num (e : entry) : nat := fst (fst e).
Definition e_target (e : entry) : nat := snd (fst e).
Definition e_mask (e : entry) : N := snd e.

Lemma updf_same : forall A (f : nat -> A) k v, updf f k v k = v.
Proof. intros. unfold updf. rewrite Nat.eqb_refl. reflexivity. Qed.

Lemma updf_other : forall A (f : nat -> A) k v x, x <> k -> updf f k v x = f x.
Proof. intros. unfold updf. destruct (x =? k) eqn:E; [apply Nat.eqb_eq in E; congruence|reflexivity]. Qed.

(** Walking the nodes [L] from [cur] ends at [e]. *)
Fixpoint seg (h : nat -> option bnode) (cur : option nat) (L : list (nat * entry))
    (e : option nat) : Prop :=
  match L with
  | [] => cur = e
  | (a, x) :: r =>
      cur = Some a /\
      exists nx, h a = Some (mkBnode (e_target x) (e_num x) (e_mask x) nx) /\ seg h nx r e
  end.

Lemma seg_app : forall h L1 L2 c e,
  seg h c (L1 ++ L2) e <-> exists m, seg h c L1 m /\ seg h m L2 e.
Proof.
  induction L1 as [|[a x] L1 IH]; intros L2 c e; simpl.
  - split; [intros H; exists c; auto|intros (m & -> & H); exact H].
  - split.
    + intros (-> & nx & Ha & Hs). apply IH in Hs. destruct Hs as (m & H1 & H2).
      exists m. split; [|exact H2]. split; [reflexivity|]. exists nx. auto.
    + intros (m & (-> & nx & Ha & H1) & H2). split; [reflexivity|]. exists nx.
      split; [exact Ha|]. apply IH. exists m. auto.
Qed.

Lemma seg_upd : forall h L c e p v,
  ~ In p (map fst L) -> seg h c L e -> seg (updf h p v) c L e.
Proof.
  induction L as [|[a x] L IH]; intros c e p v Hn; simpl; [auto|].
  intros (-> & nx & Ha & Hs). split; [reflexivity|]. exists nx. split.
  - rewrite updf_other; [exact Ha|]. intros ->. apply Hn. simpl. auto.
  - apply IH; [|exact Hs]. intros Hi. apply Hn. simpl. auto.
Qed.

Definition last_addr (L : list (nat * entry)) (d : option nat) : option nat :=
  match rev L with [] => d | (a, _) :: _ => Some a end.

Lemma last_addr_app : forall L a x d, last_addr (L ++ [(a, x)]) d = Some a.
Proof. intros. unfold last_addr. rewrite rev_app_distr. reflexivity. Qed.

Definition nums (L : list (nat * entry)) : list nat := map (fun y => e_num (snd y)) L.

Record inv (s : dstate) (L : list (nat * entry)) : Prop := mkInv {
  i_seg : seg (h_mem s) (h_top s) L None;
  i_bot : h_bottom s = last_addr L None;
  i_nodup : NoDup (map fst L);
  i_fresh : forall a, In a (map fst L) -> a < h_fresh s;
  i_len : length L <= h_fresh s;
  i_sort : StronglySorted lt (nums L);
  i_num : forall n, In n (nums L) -> 1 <= n <= h_count s;
}.

Lemma ssorted_snoc : forall l n,
  StronglySorted lt l -> (forall x, In x l -> x < n) -> StronglySorted lt (l ++ [n]).
Proof.
  induction l as [|y l IH]; intros n Hs Hl; simpl.
  - constructor; constructor.
  - inversion Hs as [|? ? Hs' Hf]; subst. constructor.
    + apply IH; [exact Hs'|]. intros x Hx. apply Hl. right. exact Hx.
    + apply Forall_app. split; [exact Hf|]. constructor; [|constructor]. apply Hl. left. reflexivity.
Qed.

Lemma add_inv : forall s L t m, inv s L ->
  exists s', add_breakpoint s t m = Some s'
    /\ inv s' (L ++ [(h_fresh s, (S (h_count s), t, m))])
    /\ h_count s' = S (h_count s)
    /\ h_tracing s' = updf (h_tracing s) t m
    /\ h_stepping s' = h_stepping s /\ h_nexting s' = h_nexting s.
Proof.
  intros s L t m I. destruct I as [Hseg Hbot Hnd Hfr Hlen Hso Hnum].
  assert (Hnin : ~ In (h_fresh s) (map fst L)).
  { intros Hi. apply Hfr in Hi. lia. }
  assert (Hnd' : NoDup (map fst (L ++ [(h_fresh s, (S (h_count s), t, m))]))).
  { rewrite map_app. simpl. rewrite <- rev_involutive. apply NoDup_rev.
    rewrite rev_app_distr. simpl. constructor.
    - rewrite <- in_rev. exact Hnin.
    - apply NoDup_rev. exact Hnd. }
  assert (Hfr' : forall a, In a (map fst (L ++ [(h_fresh s, (S (h_count s), t, m))])) -> a < S (h_fresh s)).
  { intros a Ha. rewrite map_app in Ha. apply in_app_or in Ha. destruct Ha as [Ha|[<-|[]]].
    - apply Hfr in Ha. lia. - simpl. lia. }
  assert (Hlen' : length (L ++ [(h_fresh s, (S (h_count s), t, m))]) <= S (h_fresh s)).
  { rewrite app_length. simpl. lia. }
  assert (Hso' : StronglySorted lt (nums (L ++ [(h_fresh s, (S (h_count s), t, m))]))).
  { unfold nums. rewrite map_app. apply ssorted_snoc; [exact Hso|].
    intros x Hx. apply Hnum in Hx. cbn. lia. }
  assert (Hnum' : forall n, In n (nums (L ++ [(h_fresh s, (S (h_count s), t, m))])) -> 1 <= n <= S (h_count s)).
  { intros n Hn. unfold nums in Hn. rewrite map_app in Hn. apply in_app_or in Hn.
    destruct Hn as [Hn|[<-|[]]]; [apply Hnum in Hn|cbn]; lia. }
  unfold add_breakpoint.
  destruct (h_top s) as [top|] eqn:Et.
  - (* non-empty *)
    destruct (rev L) as [|[b xb] Lr] eqn:Er.
    { apply (f_equal (@rev _)) in Er. rewrite rev_involutive in Er. subst L. simpl in Hseg. discriminate. }
    assert (EL : L = rev Lr ++ [(b, xb)]).
    { rewrite <- (rev_involutive L), Er. reflexivity. }
    rewrite Hbot. unfold last_addr. rewrite Er.
    rewrite EL in Hseg. apply seg_app in Hseg. destruct Hseg as (mid & H1 & H2).
    simpl in H2. destruct H2 as (-> & nx & Hb & ->).
    rewrite Hb. eexists. split; [reflexivity|]. split; [|cbn; repeat split; reflexivity].
    assert (Hbn : ~ In b (map fst (rev Lr))).
    { rewrite EL, map_app in Hnd. simpl in Hnd. apply NoDup_remove_2 in Hnd.
      rewrite app_nil_r in Hnd. exact Hnd. }
    constructor; cbn [h_mem h_top h_bottom h_fresh h_count]; try assumption.
    + rewrite EL. rewrite <- app_assoc. apply seg_app. exists (Some b). split.
      * rewrite <- Et. rewrite Et. apply seg_upd; [exact Hbn|]. apply seg_upd; [|exact H1].
        intros Hi. apply Hnin. rewrite EL, map_app. apply in_or_app. left. exact Hi.
      * simpl. split; [reflexivity|]. exists (Some (h_fresh s)). split.
        -- rewrite updf_same. reflexivity.
        -- split; [reflexivity|]. exists None. split; [|reflexivity].
           rewrite updf_other.
           ++ rewrite updf_same. reflexivity.
           ++ intros E. apply Hnin. rewrite EL, map_app. apply in_or_app. right. simpl. left. congruence.
    + rewrite last_addr_app. reflexivity.
  - destruct L as [|[a x] L']; [|simpl in Hseg; destruct Hseg; discriminate].
    rewrite Hbot. cbn [last_addr rev].
    eexists. split; [reflexivity|]. split; [|cbn; repeat split; reflexivity].
    constructor; cbn [h_mem h_top h_bottom h_fresh h_count app]; try assumption.
    + simpl. split; [reflexivity|]. exists None. split; [|reflexivity]. rewrite updf_same. reflexivity.
    + reflexivity.
Qed.

Lemma find_bp_spec : forall h i L fuel prev cur,
  seg h cur L None -> length L <= fuel ->
  (exists L1 a x L2, L = L1 ++ (a, x) :: L2 /\ e_num x = i /\ ~ In i (nums L1)
     /\ find_bp fuel h i prev cur = Some (last_addr L1 prev, Some a))
  \/ (~ In i (nums L) /\ find_bp fuel h i prev cur = Some (last_addr L prev, None)).
Proof.
  intros h i. induction L as [|[a x] L IH]; intros fuel prev cur Hs Hl.
  - simpl in Hs. subst cur. right. split; [intros []|]. destruct fuel; reflexivity.
  - simpl in Hs. destruct Hs as (-> & nx & Ha & Hs). simpl in Hl.
    destruct fuel as [|fuel]; [lia|]. cbn [find_bp]. rewrite Ha. cbn [n_num].
    destruct (e_num x =? i) eqn:E.
    + apply Nat.eqb_eq in E. left. exists [], a, x, L. repeat split; auto.
    + apply Nat.eqb_neq in E. destruct (IH fuel (Some a) nx Hs ltac:(lia)) as
        [(L1 & a' & x' & L2 & -> & Hx & Hn & Hf)|(Hn & Hf)].
      * left. exists ((a, x) :: L1), a', x', L2. split; [reflexivity|]. split; [exact Hx|]. split.
        -- intros [H|H]; [simpl in H; congruence|]. exact (Hn H).
        -- cbn [n_next]. rewrite Hf. unfold last_addr. simpl. destruct (rev L1) as [|[? ?] ?]; reflexivity.
      * right. split.
        -- intros [H|H]; [simpl in H; congruence|]. exact (Hn H).
        -- cbn [n_next]. rewrite Hf. unfold last_addr. simpl. destruct (rev L) as [|[? ?] ?]; reflexivity.
Qed.

Lemma ssorted_app : forall l1 l2, StronglySorted lt (l1 ++ l2) ->
  StronglySorted lt l1 /\ StronglySorted lt l2 /\ forall x y, In x l1 -> In y l2 -> x < y.
Proof.
  induction l1 as [|z l1 IH]; simpl; intros l2 H.
  - split; [constructor|]. split; [exact H|]. intros x y [].
  - inversion H as [|? ? Hs Hf]; subst. apply IH in Hs. destruct Hs as (H1 & H2 & H3).
    rewrite Forall_app in Hf. destruct Hf as [Hf1 Hf2]. split; [constructor; assumption|].
    split; [exact H2|]. intros x y [->|Hx] Hy.
    + rewrite Forall_forall in Hf2. apply Hf2. exact Hy.
    + apply H3; assumption.
Qed.

Lemma ssorted_mid : forall l1 x l2, StronglySorted lt (l1 ++ x :: l2) ->
  StronglySorted lt (l1 ++ l2) /\ ~ In x l1 /\ ~ In x l2.
Proof.
  induction l1 as [|z l1 IH]; simpl; intros x l2 H.
  - inversion H as [|? ? Hs Hf]; subst. split; [exact Hs|]. split; [intros []|].
    intros Hi. rewrite Forall_forall in Hf. apply Hf in Hi. lia.
  - inversion H as [|? ? Hs Hf]; subst. apply IH in Hs. destruct Hs as (H1 & H2 & H3).
    rewrite Forall_forall in Hf. split.
    + constructor; [exact H1|]. apply Forall_forall. intros y Hy. apply Hf.
      apply in_app_or in Hy. apply in_or_app. destruct Hy; [left|right; right]; assumption.
    + split; [|exact H3]. intros [->|Hi]; [|exact (H2 Hi)].
      assert (Hi : In x (l1 ++ x :: l2)) by (apply in_or_app; right; left; reflexivity).
      apply Hf in Hi. lia.
Qed.

(** Entries whose number differs from [i]. *)
Definition without (i : nat) (l : list entry) : list entry :=
  filter (fun e => negb (e_num e =? i)) l.

Definition tracing_after_remove (l : list entry) (tr : nat -> N) (i : nat) : nat -> N :=
  match find (fun e => e_num e =? i) l with
  | None => tr
  | Some e => if negb (N.eqb (tr (e_target e)) 0) then updf tr (e_target e) BRK_NONE else tr
  end.

Lemma find_none_nums : forall i (L : list (nat * entry)), ~ In i (nums L) ->
  find (fun e => e_num e =? i) (map snd L) = None /\ without i (map snd L) = map snd L.
Proof.
  induction L as [|[a x] L IH]; intros Hn; simpl; [auto|].
  destruct (e_num x =? i) eqn:E.
  - apply Nat.eqb_eq in E. exfalso. apply Hn. left. exact E.
  - cbn [negb]. destruct IH as [H1 H2]; [intros Hi; apply Hn; right; exact Hi|].
    split; [exact H1|]. unfold without in *. cbn. rewrite ?E. cbn. rewrite H2. reflexivity.
Qed.

Lemma find_mid : forall i L1 a x L2, e_num x = i -> ~ In i (nums L1) -> ~ In i (nums L2) ->
  find (fun e => e_num e =? i) (map snd (L1 ++ (a, x) :: L2)) = Some x
  /\ without i (map snd (L1 ++ (a, x) :: L2)) = map snd (L1 ++ L2).
Proof.
  intros i L1 a x L2 Hx H1 H2. rewrite !map_app. cbn [map snd].
  induction L1 as [|[b y] L1 IH].
  - cbn. rewrite Hx, Nat.eqb_refl. cbn. split; [reflexivity|]. apply find_none_nums. exact H2.
  - cbn. destruct (e_num y =? i) eqn:E.
    + apply Nat.eqb_eq in E. exfalso. apply H1. left. exact E.
    + cbn. destruct IH as [Ha Hb]; [intros Hi; apply H1; right; exact Hi|].
      split; [exact Ha|]. f_equal. exact Hb.
Qed.

Lemma remove_inv : forall s L i, inv s L ->
  exists b s' L', remove_breakpoint s i = Some (b, s')
    /\ inv s' L' /\ map snd L' = without i (map snd L)
    /\ h_count s' = h_count s
    /\ h_tracing s' = tracing_after_remove (map snd L) (h_tracing s) i
    /\ h_stepping s' = h_stepping s /\ h_nexting s' = h_nexting s
    /\ b = match find (fun e => e_num e =? i) (map snd L) with
           | None => false
           | Some e => negb (N.eqb (h_tracing s (e_target e)) 0)
           end.
Proof.
  intros s L i I. destruct I as [Hseg Hbot Hnd Hfr Hlen Hso Hnum].
  assert (Hskip : ~ In i (nums L) -> exists L',
     inv s L' /\ map snd L' = without i (map snd L) /\ h_count s = h_count s
    /\ h_tracing s = tracing_after_remove (map snd L) (h_tracing s) i
    /\ h_stepping s = h_stepping s /\ h_nexting s = h_nexting s
    /\ false = match find (fun e => e_num e =? i) (map snd L) with
           | None => false
           | Some e => negb (N.eqb (h_tracing s (e_target e)) 0)
           end).
  { intros Hn. exists L. destruct (find_none_nums i L Hn) as [H1 H2].
    unfold tracing_after_remove. rewrite H1, H2. split; [constructor; assumption|]. auto 8. }
  unfold remove_breakpoint.
  destruct (i =? 0) eqn:E0.
  { apply Nat.eqb_eq in E0. destruct Hskip as [L' HL'].
    - intros Hi. apply Hnum in Hi. lia.
    - exists false, s, L'. split; [reflexivity|exact HL']. }
  destruct (h_count s <? i) eqn:E1.
  { apply Nat.ltb_lt in E1. destruct Hskip as [L' HL'].
    - intros Hi. apply Hnum in Hi. lia.
    - exists false, s, L'. split; [reflexivity|exact HL']. }
  destruct (find_bp_spec (h_mem s) i L (h_fresh s) None (h_top s) Hseg Hlen)
    as [(L1 & a & x & L2 & EL & Hx & Hn & Hf)|(Hn & Hf)]; rewrite Hf; [|].
  2:{ destruct (Hskip Hn) as [L' HL']. exists false, s, L'. split; [reflexivity|exact HL']. }
  subst L.
  assert (Hn2 : ~ In i (nums L2)).
  { unfold nums in Hso. rewrite map_app in Hso. cbn in Hso. apply ssorted_mid in Hso.
    destruct Hso as (_ & _ & H). rewrite Hx in H. exact H. }
  apply seg_app in Hseg. destruct Hseg as (mid & Hs1 & Hs2). cbn in Hs2.
  destruct Hs2 as (-> & nx & Ha & Hs2). rewrite Ha. cbn [n_next n_target].
  destruct (find_mid i L1 a x L2 Hx Hn Hn2) as [Hfind Hwo].
  assert (Hnd2 : NoDup (map fst L1 ++ map fst L2) /\ ~ In a (map fst L1 ++ map fst L2)).
  { rewrite map_app in Hnd. cbn in Hnd. split; [eapply NoDup_remove_1|eapply NoDup_remove_2]; exact Hnd. }
  destruct Hnd2 as [Hnd2 Hna].
  assert (HaL1 : ~ In a (map fst L1)) by (intros Hi; apply Hna; apply in_or_app; auto).
  assert (HaL2 : ~ In a (map fst L2)) by (intros Hi; apply Hna; apply in_or_app; auto).
  (* the relinked memory *)
  assert (Hlink : exists mem1,
    match last_addr L1 None with
    | None => Some (h_mem s)
    | Some p => match h_mem s p with
                | None => None
                | Some np => Some (updf (h_mem s) p
                      (Some (mkBnode (n_target np) (n_num np) (n_mask np) nx)))
                end
    end = Some mem1
    /\ (L1 = [] \/ seg mem1 (h_top s) L1 nx) /\ seg mem1 nx L2 None).
  { destruct (rev L1) as [|[p xp] Lr] eqn:Er.
    - unfold last_addr. rewrite Er. eexists. split; [reflexivity|].
      split; [left; apply (f_equal (@rev _)) in Er; rewrite rev_involutive in Er; exact Er|exact Hs2].
    - assert (EL : L1 = rev Lr ++ [(p, xp)]) by (rewrite <- (rev_involutive L1), Er; reflexivity).
      unfold last_addr. rewrite Er. rewrite EL in Hs1. apply seg_app in Hs1.
      destruct Hs1 as (mid & H1 & H2). cbn in H2. destruct H2 as (-> & nx' & Hp & ->).
      rewrite Hp. eexists. split; [reflexivity|]. cbn [n_target n_num n_mask].
      assert (Hp1 : ~ In p (map fst (rev Lr)) /\ ~ In p (map fst L2)).
      { rewrite EL, map_app in Hnd2. cbn in Hnd2. rewrite <- app_assoc in Hnd2. cbn in Hnd2.
        apply NoDup_remove_2 in Hnd2. split; intros Hi; apply Hnd2; apply in_or_app; auto. }
      split.
      + right. rewrite EL. apply seg_app. exists (Some p). split.
        * apply seg_upd; [apply Hp1|exact H1].
        * cbn. split; [reflexivity|]. exists nx. split; [|reflexivity]. rewrite updf_same. reflexivity.
      + apply seg_upd; [apply Hp1|exact Hs2]. }
  destruct Hlink as (mem1 & Hl & Hl1 & Hl2). rewrite Hl.
  eexists _, _, (L1 ++ L2). split; [reflexivity|].
  split.
  - constructor; cbn [h_mem h_top h_bottom h_fresh h_count].
    + apply seg_app. destruct L1 as [|[b y] L1'].
      * cbn in Hs1. exists nx. rewrite Hs1, Nat.eqb_refl. cbn. split; [reflexivity|].
        apply seg_upd; [exact HaL2|exact Hl2].
      * destruct Hl1 as [H|Hl1]; [discriminate|].
        pose proof Hs1 as Htop. cbn in Htop. destruct Htop as (Htop & _).
        rewrite Htop in *. exists nx. split.
        -- destruct (b =? a) eqn:Eb.
           ++ apply Nat.eqb_eq in Eb. subst. exfalso. apply HaL1. left. reflexivity.
           ++ apply seg_upd; [exact HaL1|exact Hl1].
        -- apply seg_upd; [exact HaL2|exact Hl2].
    + destruct L2 as [|[b y] L2'].
      * cbn in Hs2. subst nx. rewrite app_nil_r. reflexivity.
      * cbn in Hs2. destruct Hs2 as (-> & _). rewrite Hbot. unfold last_addr.
        rewrite !rev_app_distr. cbn [rev]. rewrite <- !app_assoc.
        destruct (rev L2') as [|[? ?] ?]; reflexivity.
    + rewrite map_app. exact Hnd2.
    + intros c Hc. apply Hfr. rewrite map_app in *. cbn. apply in_app_or in Hc.
      apply in_or_app. destruct Hc; [left|right; right]; assumption.
    + rewrite app_length in *. cbn in Hlen. lia.
    + unfold nums in *. rewrite map_app in *. cbn in Hso. apply ssorted_mid in Hso. apply Hso.
    + intros c Hc. apply Hnum. unfold nums in *. rewrite map_app in *. cbn. apply in_app_or in Hc.
      apply in_or_app. destruct Hc; [left|right; right]; assumption.
  - cbn [h_count h_tracing h_stepping h_nexting]. unfold tracing_after_remove. rewrite Hfind, Hwo.
    repeat split; reflexivity.
Qed.

Lemma list_bp_spec : forall h L fuel cur, seg h cur L None -> length L <= fuel ->
  list_bp fuel h cur = Some (map snd L).
Proof.
  induction L as [|[a x] L IH]; intros fuel cur Hs Hl.
  - cbn in Hs. subst. destruct fuel; reflexivity.
  - cbn in Hs. destruct Hs as (-> & nx & Ha & Hs). cbn in Hl. destruct fuel as [|fuel]; [lia|].
    cbn [list_bp]. rewrite Ha. cbn [n_next]. rewrite (IH fuel nx Hs) by lia.
    cbn. destruct x as [[? ?] ?]. reflexivity.
Qed.

Lemma inv_init : inv dinit [].
Proof.
  constructor; cbn.
  - reflexivity.
  - reflexivity.
  - apply NoDup_nil.
  - intros a [].
  - apply le_n.
  - apply SSorted_nil.
  - intros n [].
Qed.

(** * The abstract machine *)

Record astate := mkA {
  a_list : list entry;
  a_count : nat;
  a_tr : nat -> N;
  a_stepping : nat;
  a_nexting : nat;
}.

(** A state of the model with the same counters and no list. *)
Definition shadow (s : dstate) (tr : nat -> N) (st nx : nat) : dstate :=
  mkD (h_mem s) (h_fresh s) (h_top s) (h_bottom s) (h_count s) tr st nx.

Definition rel (s : dstate) (a : astate) : Prop :=
  exists L, inv s L /\ map snd L = a_list a /\ h_count s = a_count a
    /\ h_tracing s = a_tr a /\ h_stepping s = a_stepping a /\ h_nexting s = a_nexting a.

Definition a_enter (on_error : bool) (a : astate) (t : nat) (r : reason) : bool * astate :=
  let s := mkD (fun _ => None) 0 None None 0 (a_tr a) (a_stepping a) (a_nexting a) in
  let '(b, s') := enter_debugger on_error s t r in
  (b, mkA (a_list a) (a_count a) (h_tracing s') (h_stepping s') (h_nexting s')).

Definition a_visit (on_error : bool) (a : astate) (t : nat) (cmds : bool) (r : reason) : bool * astate :=
  let s := mkD (fun _ => None) 0 None None 0 (a_tr a) (a_stepping a) (a_nexting a) in
  let '(b, s') := visit on_error s t cmds r in
  (b, mkA (a_list a) (a_count a) (h_tracing s') (h_stepping s') (h_nexting s')).

Definition a_remove (a : astate) (i : nat) : astate :=
  mkA (without i (a_list a)) (a_count a) (tracing_after_remove (a_list a) (a_tr a) i)
      (a_stepping a) (a_nexting a).

Fixpoint a_delete_from (a : astate) (i k : nat) : astate :=
  match k with O => a | S k' => a_delete_from (a_remove a i) (S i) k' end.

Definition a_step (on_error : bool) (a : astate) (o : dop) : astate :=
  match o with
  | OpBreak t m => mkA (a_list a ++ [(S (a_count a), t, m)]) (S (a_count a))
                       (updf (a_tr a) t m) (a_stepping a) (a_nexting a)
  | OpDelete i => a_remove a i
  | OpDeleteAll => a_delete_from a 1 (a_count a)
  | OpFinish t => mkA (a_list a) (a_count a)
                      (updf (a_tr a) t (N.lor (a_tr a t) BRK_AFTER_CMD)) 0 0
  | OpVisit t cmds r => snd (a_visit on_error a t cmds r)
  | OpStep n => mkA (a_list a) (a_count a) (a_tr a) n 0
  | OpContinue => mkA (a_list a) (a_count a) (a_tr a) 0 0
  end.

Definition a_init : astate := mkA [] 0 (fun _ => BRK_NONE) 0 0.

Lemma inv_same : forall s s' L, inv s L ->
  h_mem s' = h_mem s -> h_fresh s' = h_fresh s -> h_top s' = h_top s ->
  h_bottom s' = h_bottom s -> h_count s' = h_count s -> inv s' L.
Proof.
  intros s s' L [A B C D E F G] H1 H2 H3 H4 H5.
  constructor; rewrite ?H1, ?H2, ?H3, ?H4, ?H5; assumption.
Qed.

(** [visit] looks at tracing and the counters only, and changes only them. *)
Lemma visit_shadow : forall oe s s0 t c r,
  h_tracing s0 = h_tracing s -> h_stepping s0 = h_stepping s -> h_nexting s0 = h_nexting s ->
  fst (visit oe s t c r) = fst (visit oe s0 t c r)
  /\ h_tracing (snd (visit oe s t c r)) = h_tracing (snd (visit oe s0 t c r))
  /\ h_stepping (snd (visit oe s t c r)) = h_stepping (snd (visit oe s0 t c r))
  /\ h_nexting (snd (visit oe s t c r)) = h_nexting (snd (visit oe s0 t c r))
  /\ h_mem (snd (visit oe s t c r)) = h_mem s /\ h_fresh (snd (visit oe s t c r)) = h_fresh s
  /\ h_top (snd (visit oe s t c r)) = h_top s /\ h_bottom (snd (visit oe s t c r)) = h_bottom s
  /\ h_count (snd (visit oe s t c r)) = h_count s.
Proof.
  intros oe s s0 t c r H1 H2 H3. unfold visit, enter_debugger. rewrite H1, H2, H3.
  repeat (match goal with
          | |- context [if ?b then _ else _] =>
              lazymatch b with
              | context [if _ then _ else _] => fail
              | _ => destruct b eqn:?
              end
          end; cbn [fst snd h_tracing h_stepping h_nexting h_mem h_fresh h_top h_bottom h_count set_tracing]);
  try (destruct r; cbn [fst snd h_tracing h_stepping h_nexting h_mem h_fresh h_top h_bottom h_count set_tracing]);
  rewrite ?H1, ?H2, ?H3; auto 12; try congruence.
  all: cbn [h_tracing] in *; rewrite ?H1 in *; try congruence; auto 12.
Qed.

Lemma rel_delete_from : forall k i s a, rel s a ->
  exists s', delete_from s i k = Some s' /\ rel s' (a_delete_from a i k).
Proof.
  induction k as [|k IH]; intros i s a R; cbn [delete_from a_delete_from].
  - exists s. auto.
  - destruct R as (L & I & El & Ec & Et & Es & En).
    destruct (remove_inv s L i I) as (b & s1 & L1 & Hr & I1 & Hl & Hc & Ht & Hs & Hn & _).
    rewrite Hr. apply IH. exists L1. split; [exact I1|]. cbn. rewrite <- El, <- Et.
    repeat split; first [congruence | assumption].
Qed.

Lemma rel_step : forall oe s a o, rel s a ->
  exists s', dstep oe s o = Some s' /\ rel s' (a_step oe a o).
Proof.
  intros oe s a o R. destruct o; cbn [dstep a_step].
  - destruct R as (L & I & El & Ec & Et & Es & En).
    destruct (add_inv s L t m I) as (s' & Ha & I' & Hc & Ht & Hs & Hn).
    exists s'. split; [exact Ha|]. eexists. split; [exact I'|]. cbn.
    rewrite map_app, El, Hc, Ht, Hs, Hn, Ec, Et, Es, En. cbn. auto 8.
  - destruct R as (L & I & El & Ec & Et & Es & En).
    destruct (remove_inv s L i I) as (b & s1 & L1 & Hr & I1 & Hl & Hc & Ht & Hs & Hn & _).
    rewrite Hr. exists s1. split; [reflexivity|]. exists L1. split; [exact I1|]. cbn. rewrite <- El, <- Et.
    repeat split; first [congruence | assumption].
  - destruct R as (L & I & El & Ec & Et & Es & En).
    unfold delete_all. rewrite Ec. apply rel_delete_from. exists L. auto 8.
  - destruct R as (L & I & El & Ec & Et & Es & En). eexists. split; [reflexivity|].
    exists L. split; [eapply inv_same; [exact I|..]; reflexivity|]. cbn. rewrite Et. auto 8.
  - destruct R as (L & I & El & Ec & Et & Es & En). eexists. split; [reflexivity|].
    unfold a_visit.
    destruct (visit_shadow oe s (mkD (fun _ => None) 0 None None 0 (a_tr a) (a_stepping a) (a_nexting a))
                t cmds r) as (_ & V2 & V3 & V4 & V5 & V6 & V7 & V8 & V9); cbn; try congruence.
    destruct (visit oe (mkD (fun _ => None) 0 None None 0 (a_tr a) (a_stepping a) (a_nexting a)) t cmds r) as [b s0] eqn:E.
    cbn [snd] in *. exists L. split; [eapply inv_same; [exact I|..]; assumption|].
    cbn. rewrite V9. repeat split; first [assumption | congruence].
  - destruct R as (L & I & El & Ec & Et & Es & En). eexists. split; [reflexivity|].
    exists L. split; [eapply inv_same; [exact I|..]; reflexivity|]. cbn. auto 8.
  - destruct R as (L & I & El & Ec & Et & Es & En). eexists. split; [reflexivity|].
    exists L. split; [eapply inv_same; [exact I|..]; reflexivity|]. cbn. auto 8.
Qed.

Definition a_run (oe : bool) (a : astate) (ops : list dop) : astate := fold_left (a_step oe) ops a.

Lemma rel_run : forall oe ops s a, rel s a ->
  exists s', drun oe s ops = Some s' /\ rel s' (a_run oe a ops).
Proof.
  induction ops as [|o ops IH]; intros s a R; cbn.
  - exists s. auto.
  - destruct (rel_step oe s a o R) as (s1 & H1 & R1). rewrite H1. apply IH. exact R1.
Qed.

Lemma rel_init : rel dinit a_init.
Proof. exists []. split; [apply inv_init|]. cbn. auto 8. Qed.

Lemma run_rel : forall oe ops,
  exists s, drun oe dinit ops = Some s /\ rel s (a_run oe a_init ops).
Proof. intros. apply rel_run. apply rel_init. Qed.
