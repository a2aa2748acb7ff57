From Coq Require Import Sorted.
From Verif Require Import Base M_Implicit S_Implicit P_Implicit P_Implicit2 P_Implicit3.

(** ** Definitions of pattern rules *)

Lemma same_names_iff : forall a b, same_names a b = true <-> map pd_name a = map pd_name b.
Proof.
  induction a as [|d a IH]; intros [|d2 b]; cbn [same_names map]; try (split; congruence).
  rewrite andb_true_iff, str_eqb_eq, IH. split; [intros [-> ->]; reflexivity|intros H; injection H; auto].
Qed.
Lemma duplicates_single : forall new old, single new -> single old -> duplicates new old = true <-> rule_names new = rule_names old.
Proof.
  intros new old [t T] [u U]. unfold duplicates, rule_names. rewrite T, U. cbn [existsb forallb map]. rewrite orb_false_r, andb_true_r, andb_true_iff, str_eqb_eq, same_names_iff.
  split; [intros [-> ->]; reflexivity|intros H; injection H; auto].
Qed.
Definition defined (defs : list (rule * bool)) : list rule := fold_left (fun l d => new_pattern_rule (fst d) (snd d) l) defs [].

Lemma remove_first_filter : forall (f : rule -> bool) l, (forall a b x y, l = a ++ x :: b -> f x = true -> In y b -> f y = false) -> remove_first f l = filter (fun x => negb (f x)) l.
Proof.
  intros f l. induction l as [|x l IH]; intros H; [reflexivity|]. cbn [remove_first filter]. destruct (f x) eqn:E; cbn [negb].
  - assert (K : forall y, In y l -> f y = false) by (intros y Hy; exact (H [] l x y eq_refl E Hy)). clear -K. induction l as [|y l IH]; [reflexivity|].
    cbn [filter]. rewrite (K y (or_introl eq_refl)). cbn [negb]. rewrite <- IH; [reflexivity|]. intros z Hz. apply K. right. exact Hz.
  - rewrite IH; [reflexivity|]. intros a b u v -> U V. exact (H (x :: a) b u v eq_refl U V).
Qed.
Lemma Forall2_filter : forall A B (R : A -> B -> Prop) f g l m, Forall2 R l m -> (forall a b, R a b -> f a = g b) -> Forall2 R (filter f l) (filter g m).
Proof.
  intros A B R f g l m H K. induction H as [|a b l m H _ IH]; [constructor|]. cbn [filter]. rewrite (K a b H). destruct (g b); [constructor; assumption|assumption].
Qed.
Lemma StronglySorted_filter : forall A (R : A -> A -> Prop) f l, StronglySorted R l -> StronglySorted R (filter f l).
Proof.
  intros A R f l H. induction H as [|a l H IH F]; [constructor|]. cbn [filter]. destruct (f a); [|exact IH]. constructor; [exact IH|].
  apply Forall_forall. intros x Hx. apply filter_In in Hx. rewrite Forall_forall in F. apply F. tauto.
Qed.
Lemma StronglySorted_snoc : forall A (R : A -> A -> Prop) l x, StronglySorted R l -> (forall y, In y l -> R y x) -> StronglySorted R (l ++ [x]).
Proof.
  intros A R l x H. induction H as [|a l H IH F]; intros K; [constructor; [constructor|constructor]|]. cbn [app]. constructor.
  - apply IH. intros y Hy. apply K. right. exact Hy.
  - apply Forall_app. split; [exact F|]. constructor; [apply K; left; reflexivity|constructor].
Qed.

Lemma filter_all : forall A (f : A -> bool) l, (forall x, In x l -> f x = true) -> filter f l = l.
Proof.
  intros A f l. induction l as [|x l IH]; intros H; [reflexivity|]. cbn [filter]. rewrite (H x (or_introl eq_refl)). f_equal. apply IH. intros y Hy. apply H. right. exact Hy.
Qed.

Lemma survives_unique : forall defs j k r o r' o', survives defs j -> survives defs k -> nth_error defs j = Some (r, o) -> nth_error defs k = Some (r', o') ->
  rule_names r = rule_names r' -> j = k.
Proof.
  assert (X : forall defs j k r o r' o', survives defs j -> survives defs k -> nth_error defs j = Some (r, o) -> nth_error defs k = Some (r', o') -> rule_names r = rule_names r' -> ~ j < k).
  { intros defs j k r o r' o' (r1 & o1 & E1 & H1) (r2 & o2 & E2 & H2) J K E L. rewrite J in E1. injection E1 as <- <-. rewrite K in E2. injection E2 as <- <-.
    destruct o, o'.
    - exact (H1 k r' L K (eq_sym E)).
    - exact (proj1 H2 j r J E).
    - exact (proj1 H1 k r' K (eq_sym E)).
    - exact (proj2 H2 j r L J E). }
  intros defs j k r o r' o' A B C D E. pose proof (X _ _ _ _ _ _ _ A B C D E). pose proof (X _ _ _ _ _ _ _ B A D C (eq_sym E)). lia.
Qed.

Lemma defined_names : forall defs, (forall r o, In (r, o) defs -> single r) ->
  (forall r, In r (defined defs) -> single r) /\ forall n, (exists r, In r (defined defs) /\ rule_names r = n) <-> (exists r o, In (r, o) defs /\ rule_names r = n).
Proof.
  induction defs as [|[r o] defs IH] using rev_ind; intros SG; [split; [intros r []|intros n; split; [intros (r & [] & _)|intros (r & o & [] & _)]]|].
  destruct IH as [IH1 IH2]; [intros r' o' H; apply (SG r' o'); apply in_or_app; left; exact H|]. assert (SR : single r) by (apply (SG r o); apply in_or_app; right; left; reflexivity).
  unfold defined in *. rewrite fold_left_app. cbn [fold_left fst snd]. set (l := fold_left _ defs []) in *.
  assert (RI : forall f (x : rule) l, In x (remove_first f l) -> In x l).
  { intros f x. induction l0 as [|y l0 IH]; [auto|]. cbn [remove_first]. destruct (f y); [intros H; right; exact H|]. intros [H|H]; [left; exact H|right; auto]. }
  assert (RK : forall f (x : rule) l, In x l -> In x (remove_first f l) \/ f x = true).
  { intros f x. induction l0 as [|y l0 IH]; [intros []|]. cbn [remove_first]. intros [<-|H].
    - destruct (f y) eqn:E; [right; reflexivity|left; left; reflexivity].
    - destruct (f y); [left; exact H|]. destruct (IH H) as [H'|H']; [left; right; exact H'|right; exact H']. }
  split.
  - intros x. unfold new_pattern_rule. destruct (existsb (duplicates r) l); [destruct o; [|apply IH1]|]; intros H; apply in_app_or in H; destruct H as [H|[<-|[]]]; try exact SR; [apply IH1; exact (RI _ _ _ H)|apply IH1; exact H].
  - intros n. split.
    + intros (x & H & N). assert (D : In x l \/ x = r).
      { revert H. unfold new_pattern_rule. destruct (existsb (duplicates r) l); [destruct o; [|auto]|]; intros H; apply in_app_or in H; destruct H as [H|[<-|[]]]; auto. left. exact (RI _ _ _ H). }
      destruct D as [D| ->]; [|exists r, o; split; [apply in_or_app; right; left; reflexivity|exact N]].
      destruct (proj1 (IH2 n) (ex_intro _ x (conj D N))) as (r' & o' & H' & N'). exists r', o'. split; [apply in_or_app; left; exact H'|exact N'].
    + intros (x & ox & H & N). apply in_app_or in H. unfold new_pattern_rule. destruct (existsb (duplicates r) l) eqn:EX.
      * apply existsb_exists in EX. destruct EX as (y & Y & D). apply (duplicates_single r y SR (IH1 y Y)) in D. destruct H as [H|[H|[]]].
        -- destruct (proj2 (IH2 n) (ex_intro _ x (ex_intro _ ox (conj H N)))) as (z & Z & NZ). destruct o; [|exists z; auto].
           destruct (RK (duplicates r) z l Z) as [K|K]; [exists z; split; [apply in_or_app; left; exact K|exact NZ]|]. exists r. split; [apply in_or_app; right; left; reflexivity|].
           apply (duplicates_single r z SR (IH1 z Z)) in K. congruence.
        -- injection H as <- <-. destruct o; [exists r; split; [apply in_or_app; right; left; reflexivity|exact N]|]. exists y. split; [exact Y|congruence].
      * destruct H as [H|[H|[]]]; [|injection H as <- <-; exists r; split; [apply in_or_app; right; left; reflexivity|exact N]].
        destruct (proj2 (IH2 n) (ex_intro _ x (ex_intro _ ox (conj H N)))) as (z & Z & NZ). exists z. split; [apply in_or_app; left; exact Z|exact NZ].
Qed.

Lemma nth_snoc_lt : forall A (l : list A) x j y, nth_error (l ++ [x]) j = Some y -> (j < length l /\ nth_error l j = Some y) \/ (j = length l /\ y = x).
Proof.
  intros A l x j y H. destruct (Nat.lt_ge_cases j (length l)) as [L|L]; [left; rewrite nth_error_app1 in H by exact L; auto|right].
  rewrite nth_error_app2 in H by exact L. destruct (j - length l) as [|k] eqn:E; [cbn in H; injection H as <-; split; [lia|reflexivity]|]. destruct k; discriminate.
Qed.

Theorem defined_survivors : forall defs, (forall r o, In (r, o) defs -> single r) ->
  exists js, StronglySorted lt js /\ (forall j, In j js <-> survives defs j) /\ Forall2 (fun j r => exists o, nth_error defs j = Some (r, o)) js (defined defs).
Proof.
  induction defs as [|[r o] defs IH] using rev_ind; intros SG.
  { exists []. split; [constructor|]. split; [|constructor]. intros j. split; [intros []|]. intros (r & o & H & _). destruct j; discriminate. }
  assert (SG' : forall r' o', In (r', o') defs -> single r') by (intros r' o' H; apply (SG r' o'); apply in_or_app; left; exact H).
  assert (SR : single r) by (apply (SG r o); apply in_or_app; right; left; reflexivity).
  destruct (IH SG') as (js & ST & SV & F2). destruct (defined_names defs SG') as [DS DN]. clear IH.
  assert (LTJ : forall j, In j js -> j < length defs). { intros j H. apply SV in H. destruct H as (r' & o' & E & _). apply nth_error_Some. rewrite E. discriminate. }
  assert (UP : forall (A : list nat) B, Forall2 (fun j x => exists o, nth_error defs j = Some (x, o)) A B -> Forall2 (fun j x => exists o0, nth_error (defs ++ [(r, o)]) j = Some (x, o0)) A B).
  { intros A B H. induction H as [|j x A B [o' H] _ IHH]; [constructor|]. constructor; [|exact IHH]. exists o'. rewrite nth_error_app1; [exact H|]. apply nth_error_Some. rewrite H. discriminate. }
  assert (LASTN : nth_error (defs ++ [(r, o)]) (length defs) = Some (r, o)) by (rewrite nth_error_app2 by lia; rewrite Nat.sub_diag; reflexivity).
  assert (OLD : forall j x, nth_error defs j = Some x -> nth_error (defs ++ [(r, o)]) j = Some x) by (intros j x H; rewrite nth_error_app1; [exact H|apply nth_error_Some; rewrite H; discriminate]).
  assert (DEF : defined (defs ++ [(r, o)]) = new_pattern_rule r o (defined defs)) by (unfold defined; rewrite fold_left_app; reflexivity). rewrite DEF.
  (* no two rules of the list are the same *)
  assert (UN : forall a b x y, defined defs = a ++ x :: b -> duplicates r x = true -> In y b -> duplicates r y = false).
  { intros a b x y E DX HY. destruct (duplicates r y) eqn:DY; [exfalso|reflexivity].
    assert (IX : In x (defined defs)) by (rewrite E; apply in_or_app; right; left; reflexivity). assert (IY : In y (defined defs)) by (rewrite E; apply in_or_app; right; right; exact HY).
    apply (duplicates_single r x SR (DS x IX)) in DX. apply (duplicates_single r y SR (DS y IY)) in DY. apply in_split in HY. destruct HY as (b1 & b2 & ->). rewrite E in F2.
    apply Forall2_app_inv_r in F2. destruct F2 as (ja & jb & _ & F2 & EJ). inversion F2 as [|jx x' jb' b' Hx F3 E1 E2]. subst. apply Forall2_app_inv_r in F3. destruct F3 as (jc & jd & _ & F4 & ->).
    inversion F4 as [|jy y' jd' b' Hy F5 E1 E2]. subst. destruct Hx as [ox Hx]. destruct Hy as [oy Hy].
    assert (jx = jy). { apply (survives_unique defs jx jy x ox y oy); [apply SV; apply in_or_app; right; left; reflexivity|apply SV; apply in_or_app; right; right; apply in_or_app; right; left; reflexivity|exact Hx|exact Hy|congruence]. }
    subst jy. clear -ST. induction ja as [|z ja IH]; cbn [app] in ST; inversion ST as [|z' l' ST' FA]; subst; [|apply IH; exact ST']. rewrite Forall_forall in FA. specialize (FA jx). assert (jx < jx); [|lia]. apply FA. apply in_or_app. right. left. reflexivity. }
  destruct o.
  - (* overriding *)
    set (g := fun x => negb (duplicates r x)). set (f := fun j => match nth_error defs j with Some (x, _) => g x | None => false end).
    assert (NEW : new_pattern_rule r true (defined defs) = filter g (defined defs) ++ [r]).
    { unfold new_pattern_rule. destruct (existsb (duplicates r) (defined defs)) eqn:EX; [rewrite (remove_first_filter _ _ UN); reflexivity|].
      f_equal. symmetry. apply filter_all. intros x Hx. unfold g. apply negb_true_iff. apply not_true_iff_false. intros D. rewrite <- not_true_iff_false in EX. apply EX. apply existsb_exists. exists x. auto. }
    exists (filter f js ++ [length defs]). split; [|split].
    + apply StronglySorted_snoc; [apply StronglySorted_filter; exact ST|]. intros y Hy. apply filter_In in Hy. apply LTJ. tauto.
    + intros j. split.
      * intros H. apply in_app_or in H. destruct H as [H|[<-|[]]].
        -- apply filter_In in H. destruct H as [H FJ]. apply SV in H. destruct H as (x & ox & E & H). exists x, ox. split; [apply OLD; exact E|]. unfold f in FJ. rewrite E in FJ. unfold g in FJ. apply negb_true_iff in FJ.
           assert (NK : rule_names r <> rule_names x). { intros K. apply (duplicates_single r x SR (SG' x ox (nth_error_In _ _ E))) in K. congruence. }
           destruct ox.
           ++ intros k r' L K. apply nth_snoc_lt in K. destruct K as [[_ K]|[_ K]]; [exact (H k r' L K)|injection K as ->; exact NK].
           ++ split; intros k r'; [intros K; apply nth_snoc_lt in K; destruct K as [[_ K]|[_ K]]; [exact (proj1 H k r' K)|injection K as ->; exact NK]|].
              intros L K. apply nth_snoc_lt in K. destruct K as [[_ K]|[_ K]]; [exact (proj2 H k r' L K)|discriminate].
        -- exists r, true. split; [exact LASTN|]. intros k r' L K. apply nth_snoc_lt in K. destruct K as [[K _]|[K _]]; lia.
      * intros (x & ox & E & H). apply nth_snoc_lt in E. apply in_or_app. destruct E as [[L E]|[-> E]]; [left|right; left; reflexivity]. apply filter_In.
        assert (SX : single x) by exact (SG' x ox (nth_error_In _ _ E)).
        assert (NK : rule_names r <> rule_names x). { destruct ox; [exact (H _ r L LASTN)|exact (proj1 H _ r LASTN)]. }
        split; [|unfold f; rewrite E; unfold g; apply negb_true_iff; apply not_true_iff_false; rewrite (duplicates_single r x SR SX); exact NK].
        apply SV. exists x, ox. split; [exact E|]. destruct ox.
        -- intros k r' L' K. exact (H k r' L' (OLD _ _ K)).
        -- split; [intros k r' K; exact (proj1 H k r' (OLD _ _ K))|intros k r' L' K; exact (proj2 H k r' L' (OLD _ _ K))].
    + rewrite NEW. apply Forall2_app; [|constructor; [exists true; exact LASTN|constructor]]. apply UP. apply Forall2_filter; [exact F2|]. intros j x [ox E]. unfold f. rewrite E. reflexivity.
  - (* not overriding *)
    assert (SAME : forall j, j < length defs -> survives (defs ++ [(r, false)]) j <-> survives defs j).
    { intros j L. split; intros (x & ox & E & H).
      - apply nth_snoc_lt in E. destruct E as [[_ E]|[E _]]; [|lia]. exists x, ox. split; [exact E|]. destruct ox.
        + intros k r' L' K. exact (H k r' L' (OLD _ _ K)).
        + split; [intros k r' K; exact (proj1 H k r' (OLD _ _ K))|intros k r' L' K; exact (proj2 H k r' L' (OLD _ _ K))].
      - exists x, ox. split; [apply OLD; exact E|]. destruct ox.
        + intros k r' L' K. apply nth_snoc_lt in K. destruct K as [[_ K]|[_ K]]; [exact (H k r' L' K)|discriminate].
        + split; intros k r'; [intros K|intros L' K]; apply nth_snoc_lt in K; destruct K as [[_ K]|[K1 K]]; [exact (proj1 H k r' K)|discriminate|exact (proj2 H k r' L' K)|lia]. }
    unfold new_pattern_rule. destruct (existsb (duplicates r) (defined defs)) eqn:EX.
    + exists js. split; [exact ST|]. split; [|apply UP; exact F2]. intros j. split.
      * intros H. apply SAME; [exact (LTJ j H)|apply SV; exact H].
      * intros H. destruct (H) as (x & ox & E & H'). apply nth_snoc_lt in E. destruct E as [[L E]|[-> E]]; [apply SV; apply SAME; [exact L|exact H]|exfalso]. injection E as -> ->.
        apply existsb_exists in EX. destruct EX as (y & Y & D). apply (duplicates_single r y SR (DS y Y)) in D.
        destruct (proj1 (DN (rule_names y)) (ex_intro _ y (conj Y eq_refl))) as (z & oz & Z & NZ). apply In_nth_error in Z. destruct Z as [k Z]. destruct oz.
        -- exact (proj1 H' k z (OLD _ _ Z) ltac:(congruence)).
        -- refine (proj2 H' k z _ (OLD _ _ Z) ltac:(congruence)). apply nth_error_Some. rewrite Z. discriminate.
    + assert (NO : forall k z oz, nth_error defs k = Some (z, oz) -> rule_names z <> rule_names r).
      { intros k z oz Z K. destruct (proj2 (DN (rule_names z)) (ex_intro _ z (ex_intro _ oz (conj (nth_error_In _ _ Z) eq_refl)))) as (y & Y & NY).
        rewrite <- not_true_iff_false in EX. apply EX. apply existsb_exists. exists y. split; [exact Y|]. apply (duplicates_single r y SR (DS y Y)). congruence. }
      exists (js ++ [length defs]). split; [apply StronglySorted_snoc; assumption|]. split.
      * intros j. split.
        -- intros H. apply in_app_or in H. destruct H as [H|[<-|[]]]; [apply SAME; [exact (LTJ j H)|apply SV; exact H]|]. exists r, false. split; [exact LASTN|].
           split; intros k r'; [intros K|intros L' K]; apply nth_snoc_lt in K; destruct K as [[_ K]|[K1 K]]; [exact (NO k r' _ K)|discriminate|exact (NO k r' _ K)|lia].
        -- intros H. apply in_or_app. destruct (H) as (x & ox & E & H'). apply nth_snoc_lt in E. destruct E as [[L E]|[-> E]]; [left; apply SV; apply SAME; assumption|right; left; reflexivity].
      * apply Forall2_app; [apply UP; exact F2|constructor; [exists false; exact LASTN|constructor]].
Qed.

(** ** Suffix rules *)

Lemma duplicates_same : forall r old, single r -> duplicates r old = true <-> same_rule r old.
Proof.
  intros r old [t T]. unfold duplicates, same_rule. rewrite T. cbn [existsb]. rewrite orb_false_r, andb_true_iff, forallb_forall, same_names_iff. split.
  - intros [H N]. exists t. split; [reflexivity|]. split; [|symmetry; exact N]. intros u Hu. symmetry. apply str_eqb_eq. exact (H u Hu).
  - intros (t' & E & H & N). injection E as <-. split; [|symmetry; exact N]. intros u Hu. apply str_eqb_eq. symmetry. exact (H u Hu).
Qed.
Lemma add_all : forall R l, (forall r, In r R -> single r) -> (forall r r', In r R -> In r' R -> rule_names r = rule_names r' -> r = r') ->
  exists extra, fold_left (fun l r => new_pattern_rule r false l) R l = l ++ extra /\ NoDup extra /\
    forall r, In r extra <-> In r R /\ ~ exists old, In old l /\ same_rule r old.
Proof.
  induction R as [|r R IH] using rev_ind; intros l SG UN.
  { exists []. split; [symmetry; apply app_nil_r|]. split; [constructor|]. intros r. cbn. tauto. }
  destruct (IH l) as (extra & E & ND & H); [intros x Hx; apply SG; apply in_or_app; left; exact Hx|intros x y Hx Hy; apply UN; apply in_or_app; left; assumption|].
  assert (SR : single r) by (apply SG; apply in_or_app; right; left; reflexivity). assert (INR : In r (R ++ [r])) by (apply in_or_app; right; left; reflexivity).
  rewrite fold_left_app. cbn [fold_left]. rewrite E. unfold new_pattern_rule. rewrite existsb_app.
  destruct (existsb (duplicates r) l) eqn:EL.
  - cbn [orb]. exists extra. split; [reflexivity|]. split; [exact ND|]. intros x. rewrite H, in_app_iff. cbn [In]. apply existsb_exists in EL. destruct EL as (old & O & D). apply duplicates_same in D; [|exact SR].
    split; [tauto|]. intros [[A|[<-|[]]] B]; [tauto|]. exfalso. apply B. exists old. auto.
  - assert (NL : ~ exists old, In old l /\ same_rule r old). { intros (old & O & D). apply duplicates_same in D; [|exact SR]. rewrite <- not_true_iff_false in EL. apply EL. apply existsb_exists. exists old. auto. }
    cbn [orb]. destruct (existsb (duplicates r) extra) eqn:EX.
    + exists extra. split; [reflexivity|]. split; [exact ND|]. intros x. rewrite H, in_app_iff. cbn [In]. split; [tauto|]. intros [[A|[<-|[]]] B]; [tauto|]. apply existsb_exists in EX. destruct EX as (y & Y & D).
      assert (YR : In y R) by (apply H in Y; tauto). assert (r = y).
      { apply UN; [exact INR|apply in_or_app; left; exact YR|]. apply duplicates_single; [exact SR|apply SG; apply in_or_app; left; exact YR|exact D]. }
      subst y. split; [exact YR|exact B].
    + exists (extra ++ [r]). split; [rewrite app_assoc; reflexivity|]. split.
      * apply NoDup_Add with (a := r) (l := extra); [pose proof (Add_app r extra []) as K; rewrite app_nil_r in K; exact K|]. split; [exact ND|]. intros Hr. rewrite <- not_true_iff_false in EX. apply EX. apply existsb_exists. exists r.
        split; [exact Hr|]. apply duplicates_single; [exact SR|exact SR|reflexivity].
      * intros x. rewrite !in_app_iff, H. cbn [In]. split; [intros [A|[<-|[]]]; tauto|]. intros [[A|[<-|[]]] B]; [left; tauto|right; left; reflexivity].
Qed.

Lemma str_differ : forall a b, a <> b -> str_eqb a b = false.
Proof. intros a b N. apply not_true_iff_false. rewrite str_eqb_eq. exact N. Qed.
Lemma suffix_rules_in : forall files posix suffixes r, In r (flat_map (one_suffix files posix suffixes) suffixes) <-> suffix_meaning files posix suffixes r.
Proof.
  intros files posix suffixes r. rewrite in_flat_map. split.
  - intros (d & Hd & H). unfold one_suffix in H. destruct H as [<-|H]; [apply sm_dummy; exact Hd|]. apply in_app_or in H. destruct H as [H|H].
    + destruct (files d) as [[[c|] b]|] eqn:E; try destruct H as [<-|[]]; try destruct H. exact (sm_single _ _ _ d c b Hd E).
    + apply in_flat_map in H. destruct H as (d2 & H2 & H). unfold two_suffixes in H. destruct (str_eqb d d2) eqn:EQ; [destruct H|]. assert (NE : d <> d2) by (intros K; apply str_eqb_eq in K; congruence).
      destruct (files (d ++ d2)) as [[[c|] b]|] eqn:E; try destruct H. destruct (b && posix) eqn:BP; [destruct H|]. assert (P : b = true -> posix = false) by (intros ->; exact BP).
      apply in_app_or in H. destruct H as [H|[<-|[]]]; [|exact (sm_double _ _ _ d d2 c b Hd H2 NE E P)]. destruct (str_eqb d2 dot_a) eqn:DA; [|destruct H]. apply str_eqb_eq in DA. subst d2. destruct H as [<-|[]].
      exact (sm_archive _ _ _ d c b Hd H2 NE E P).
  - intros H. destruct H as [d Hd|d c b Hd E|d d2 c b Hd H2 NE E P|d c b Hd H2 NE E P]; exists d; split; try exact Hd; unfold one_suffix.
    + left. reflexivity.
    + right. apply in_or_app. left. rewrite E. left. reflexivity.
    + right. apply in_or_app. right. apply in_flat_map. exists d2. split; [exact H2|]. unfold two_suffixes. rewrite (str_differ _ _ NE).
      rewrite E. replace (b && posix) with false by (symmetry; destruct b; [exact (P eq_refl)|reflexivity]). apply in_or_app. right. left. reflexivity.
    + right. apply in_or_app. right. apply in_flat_map. exists dot_a. split; [exact H2|]. unfold two_suffixes. change (s2l ".a") with dot_a in *. rewrite (str_differ _ _ NE).
      rewrite E. replace (b && posix) with false by (symmetry; destruct b; [exact (P eq_refl)|reflexivity]). apply in_or_app. left. rewrite (proj2 (str_eqb_eq dot_a dot_a) eq_refl). left. reflexivity.
Qed.
Lemma suffix_single : forall files posix suffixes r, suffix_meaning files posix suffixes r -> single r.
Proof. intros files posix suffixes r H. destruct H; eexists; reflexivity. Qed.
Lemma suffix_unique : forall files posix suffixes r r', ~ In [] suffixes -> suffix_meaning files posix suffixes r -> suffix_meaning files posix suffixes r' -> rule_names r = rule_names r' -> r = r'.
Proof.
  intros files posix suffixes r r' NE H H' E.
  destruct H as [d Hd|d c b Hd F|d d2 c b Hd H2 N F P|d c b Hd H2 N F P]; destruct H' as [e He|e c' b' He F'|e e2 c' b' He H2' N' F' P'|e c' b' He H2' N' F' P']; unfold rule_names in E; cbn in E; try discriminate E;
    injection E; intros; subst; try reflexivity; try congruence; try (exfalso; apply NE; assumption).
Qed.
Theorem suffix_rules : forall files posix suffixes l, ~ In [] suffixes ->
  exists extra, convert_to_pattern files posix suffixes l = l ++ extra /\ NoDup extra /\
    forall r, In r extra <-> suffix_meaning files posix suffixes r /\ ~ exists old, In old l /\ same_rule r old.
Proof.
  intros files posix suffixes l NE. destruct (add_all (flat_map (one_suffix files posix suffixes) suffixes) l) as (extra & E & ND & H).
  - intros r Hr. apply suffix_rules_in in Hr. exact (suffix_single _ _ _ _ Hr).
  - intros r r' Hr Hr'. apply suffix_rules_in in Hr. apply suffix_rules_in in Hr'. exact (suffix_unique _ _ _ _ _ NE Hr Hr').
  - exists extra. split; [exact E|]. split; [exact ND|]. intros r. rewrite H, suffix_rules_in. reflexivity.
Qed.
