From Verif Require Import Base M_Implicit S_Implicit P_Implicit P_Implicit2 P_Implicit3.

(** ** The search ends *)

Section Ends.
  Variable rules : list rule.
  Hypothesis WF : forall r, In r rules -> well_formed r.
  Variable path_max : nat.
  Variable parse : str -> list str.
  Variable lookup exists_p : str -> bool.
  Variable vpath : list str -> str -> bool.

  Lemma try_list_ends : forall rec io expl l s pat, (forall n s, rec n s <> None) ->
    fst (fst (try_list lookup exists_p vpath rec io expl l s pat)) <> OutOfFuel.
  Proof.
    intros rec io expl. induction l as [|[n o] l IH]; intros s pat H; cbn [try_list]; [discriminate|].
    destruct (mem n (s_impossible s)); [discriminate|]. destruct (available lookup exists_p vpath s expl n); [apply IH; exact H|]. destruct io; [|discriminate].
    destruct (rec n s) as [[s' [p|]]|] eqn:E; [apply IH; exact H|discriminate|exfalso; exact (H n s E)].
  Qed.
  Lemma one_pass_ends : forall rec name pl io expl ts s pat, (forall t n s, In t ts -> rec (t_index t) n s <> None) ->
    one_pass path_max parse lookup exists_p vpath rec name pl io expl ts s pat <> None.
  Proof.
    intros rec name pl io expl. induction ts as [|t ts IH]; intros s pat H; cbn [one_pass]; [discriminate|].
    assert (H' : forall u n s, In u ts -> rec (t_index u) n s <> None) by (intros u n s0 Hu; apply H; right; exact Hu).
    assert (SK : forall s pat, match one_pass path_max parse lookup exists_p vpath rec name pl io expl ts s pat with Some (s', pat', f, l) => Some (s', pat', f, t :: l) | None => None end <> None).
    { intros s0 pat0. specialize (IH s0 pat0 H'). destruct (one_pass path_max parse lookup exists_p vpath rec name pl io expl ts s0 pat0) as [[[[s1 p1] f1] l1]|]; [discriminate|congruence]. }
    destruct (io && r_terminal (t_rule t)); [apply SK|]. destruct (path_max <? full_len pl t); [apply SK|]. destruct (r_deps (t_rule t)) as [|d ds]; [discriminate|].
    rewrite try_deps_list. pose proof (try_list_ends (rec (t_index t)) io expl (names_from parse name pl t (d :: ds)) s [] (fun n s => H t n s (or_introl eq_refl))) as TE.
    destruct (try_list lookup exists_p vpath (rec (t_index t)) io expl (names_from parse name pl t (d :: ds)) s []) as [[[| | |] s1] p1]; [discriminate|apply SK|apply IH; exact H'|cbn in TE; congruence].
  Qed.

  Definition free (U : list nat) : nat := length (filter (fun i => negb (in_list i U)) (seq 0 (length rules))).
  Lemma filter_length_le : forall A (f g : A -> bool) l, (forall x, f x = true -> g x = true) -> length (filter f l) <= length (filter g l).
  Proof.
    intros A f g l H. induction l as [|a l IH]; [reflexivity|]. cbn [filter]. destruct (f a) eqn:E; [rewrite (H a E); cbn [length]; lia|]. destruct (g a); cbn [length]; lia.
  Qed.
  Lemma free_less : forall U i, i < length rules -> ~ In i U -> free (i :: U) < free U.
  Proof.
    intros U i L N. unfold free. assert (IN : In i (seq 0 (length rules))) by (apply in_seq; lia). apply in_split in IN. destruct IN as (a & b & ->).
    rewrite !filter_app, !app_length. cbn [filter]. unfold in_list at 2. cbn [existsb]. rewrite Nat.eqb_refl. cbn [orb negb].
    replace (in_list i U) with false by (symmetry; apply not_true_iff_false; rewrite in_list_iff; exact N). cbn [negb length].
    assert (X : forall x, negb (in_list x (i :: U)) = true -> negb (in_list x U) = true).
    { intros x H. unfold in_list in *. cbn [existsb] in H. apply negb_true_iff in H. apply orb_false_iff in H. destruct H as [_ H]. rewrite H. reflexivity. }
    pose proof (filter_length_le _ _ _ a X). pose proof (filter_length_le _ _ _ b X). lia.
  Qed.

  Theorem search_ends : forall fuel U re arch name expl s, free U < fuel ->
    pattern_search rules path_max parse lookup exists_p vpath fuel U re arch name expl s <> None.
  Proof.
    induction fuel as [|fuel IH]; intros U re arch name expl s L; [lia|]. cbn [pattern_search].
    set (pl := pathlen arch name). set (ts := candidates name pl re U rules).
    set (rec := fun (i : nat) (n : str) (s : sstate) => pattern_search rules path_max parse lookup exists_p vpath fuel (i :: U) true false n [] s).
    assert (RT : forall t n s0, In t ts -> rec (t_index t) n s0 <> None).
    { intros t n s0 Ht. destruct (candidates_stand rules WF U re arch name t Ht) as (prefix & st & _ & ((tgt & C) & _) & _). destruct C as (C1 & C2 & _).
      apply IH. pose proof (free_less U (t_index t)) as FL. assert (t_index t < length rules) by (apply nth_error_Some; rewrite C1; discriminate). specialize (FL H C2). lia. }
    destruct (one_pass_false path_max parse lookup exists_p vpath rec name pl expl s ts []) as (pat & f & l & E & H). rewrite E. destruct f as [t|].
    - destruct (finish name pl re s pat t). discriminate.
    - destruct H as (_ & INC & _). pose proof (one_pass_ends rec name pl true expl l s [] (fun t n s0 Ht => RT t n s0 (INC t Ht))) as OE.
      destruct (one_pass path_max parse lookup exists_p vpath rec name pl true expl l s []) as [[[[s2 p2] [t|]] l2]|]; [destruct (finish name pl re s2 p2 t)| |]; congruence.
  Qed.

  (** ** What can be made is found, if no rule can be needed twice in a chain *)

  Section Complete.
    Variable rank : nat -> nat.
    Hypothesis STRAT : forall re ar m i ti r t p s n j tj r' t' p' s', candidate rules [] re ar m i ti r t p s -> r_terminal r = false -> needs parse r p s n ->
      candidate rules [] true false n j tj r' t' p' s' -> r_terminal r' = false -> rank j < rank i.
    Hypothesis MONO : forall E E' n, vpath E n = true -> vpath (E ++ E') n = true.
    Variable expl : list str.
    Hypothesis EXPL : forall n, In n expl -> lookup n = true.
    Variable top : str.
    Variable arch0 : bool.
    Variable E0 : list str.

    Lemma candidate_less : forall U re ar n i ti r t p s, candidate rules U re ar n i ti r t p s -> candidate rules [] re ar n i ti r t p s.
    Proof. intros U re ar n i ti r t p s (A & _ & B). split; [exact A|]. split; [intros []|exact B]. Qed.
    Lemma reach_rank : forall U re ar n, reach rules parse top arch0 U re ar n -> forall j tj r t p s, candidate rules [] re ar n j tj r t p s -> r_terminal r = false -> forall k, In k U -> rank j < rank k.
    Proof.
      intros U re ar n R. induction R as [|U re ar m i ti r prefix st n R IH EL T N]; intros j tj r' t p s C T' k Hk; [destruct Hk|].
      destruct EL as ((tgt & CA) & _). apply candidate_less in CA. pose proof (STRAT _ _ _ _ _ _ _ _ _ _ _ _ _ _ _ _ CA T N C T') as L. destruct Hk as [<-|Hk]; [exact L|].
      pose proof (IH _ _ _ _ _ _ CA T k Hk). lia.
    Qed.
    Lemma reach_chained : forall U re ar n, reach rules parse top arch0 U re ar n -> forall k, In k U -> exists r, nth_error rules k = Some r /\ r_terminal r = false.
    Proof.
      intros U re ar n R. induction R as [|U re ar m i ti r prefix st n R IH EL T N]; intros k Hk; [destruct Hk|]. destruct Hk as [<-|Hk]; [|exact (IH k Hk)].
      destruct EL as ((tgt & C & _) & _). exists r. auto.
    Qed.
    Lemma candidate_same : forall U re ar n, reach rules parse top arch0 U re ar n -> forall i ti r t p s, candidate rules [] re ar n i ti r t p s <-> candidate rules U re ar n i ti r t p s.
    Proof.
      intros U re ar n R i ti r t p s. split; [|apply candidate_less]. intros C. pose proof (fun T => reach_rank U re ar n R _ _ _ _ _ _ C T i) as L. destruct C as (A & _ & B).
      split; [exact A|]. split; [|exact B]. intros K. destruct (reach_chained U re ar n R i K) as (r' & A' & T). rewrite A in A'. injection A' as <-. specialize (L T K). lia.
    Qed.
    Lemma eligible_same : forall U re ar n, reach rules parse top arch0 U re ar n -> forall i ti r p s, eligible rules [] re ar n i ti r p s -> eligible rules U re ar n i ti r p s.
    Proof.
      intros U re ar n R i ti r p s ((t & C) & H1 & H2). split; [exists t; apply (candidate_same U re ar n R); exact C|]. split; [exact H1|]. intros (i' & ti' & r' & t' & p' & s' & C' & NA).
      apply H2. exists i', ti', r', t', p', s'. split; [exact (candidate_less _ _ _ _ _ _ _ _ _ _ C')|exact NA].
    Qed.

    Notation av := (av lookup exists_p vpath).
    Lemma av_mono : forall E n, prefix_of E0 E -> av E0 expl n = true -> av E [] n = true.
    Proof.
      intros E n [c ->] H. unfold P_Implicit3.av, available in *. cbn [s_files] in *. rewrite !orb_true_iff in *. destruct H as [[[H|[H|H]]|H]|H].
      - left. left. right. left. apply EXPL. apply mem_iff. exact H.
      - left. left. right. left. exact H.
      - left. left. right. right. apply mem_iff. apply in_or_app. left. apply mem_iff. exact H.
      - left. right. exact H.
      - right. apply MONO. exact H.
    Qed.

    Lemma marked_bad : forall M, (forall n, In n M -> just rules path_max parse lookup exists_p vpath top arch0 E0 M n) ->
      forall re ar n, makeable rules path_max parse (fun n => av E0 expl n = true) re ar n -> re = true -> ar = false -> ~ In n M.
    Proof.
      intros M J. assert (NA : forall m, In m M -> av E0 expl m = true -> False).
      { intros m Hm A. destruct (J m Hm) as (U & E & _ & P & B & _). rewrite (av_mono E m P A) in B. discriminate. }
      fix IH 4. intros re ar n H E1 E2 Hn. destruct H as [i ti r prefix st D|i ti r prefix st EL TE LE SUB].
      - subst re ar. destruct (J n Hn) as (U & E & R & P & _ & X). destruct D as (EL & LE & D).
        destruct (X i ti r prefix st (eligible_same U true false n R _ _ _ _ _ EL) LE) as [(m & N & [K|K]) _]; destruct (D m N) as [_ A].
        + exact (NA m K A).
        + rewrite (av_mono E m P A) in K. discriminate.
      - subst re ar. destruct (J n Hn) as (U & E & R & P & _ & X).
        destruct (X i ti r prefix st (eligible_same U true false n R _ _ _ _ _ EL) LE) as [_ Y]. destruct (Y TE) as (m & N & K).
        destruct (SUB m N) as [A|MK]; [exact (NA m K A)|exact (IH true false m MK eq_refl eq_refl K)].
    Qed.

    Theorem search_complete : makeable rules path_max parse (fun n => av E0 expl n = true) false arch0 top ->
      forall fuel s', pattern_search rules path_max parse lookup exists_p vpath fuel [] false arch0 top expl (mkst E0 []) <> Some (s', None).
    Proof.
      intros MK fuel s' H. destruct (search_spec rules WF path_max parse lookup exists_p vpath top arch0 E0 [] fuel _ _ _ _ _ _ _ _ (re_top rules parse top arch0) H) as (_ & I & R).
      assert (I0 : Inv rules path_max parse lookup exists_p vpath top arch0 E0 [] (mkst E0 [])) by (split; [apply prefix_refl|intros n []]). destruct (I I0) as [_ J].
      assert (J' : forall n, In n (s_impossible s') -> just rules path_max parse lookup exists_p vpath top arch0 E0 (s_impossible s') n).
      { intros n Hn. destruct (J n Hn) as [[]|K]. exact K. }
      cbn [Result] in R. destruct MK as [i ti r prefix st D|i ti r prefix st EL TE LE SUB].
      - destruct D as (EL & LE & D). destruct (R i ti r prefix st EL LE) as [(m & N & [K|K]) _]; [destruct K|]. destruct (D m N) as [_ A]. unfold P_Implicit3.av in A. congruence.
      - destruct (R i ti r prefix st EL LE) as [_ Y]. destruct (Y TE) as (m & N & K). destruct (SUB m N) as [A|MK].
        + destruct (J' m K) as (U & E & _ & P & B & _). rewrite (av_mono E m P A) in B. discriminate.
        + exact (marked_bad _ J' true false m MK eq_refl eq_refl K).
    Qed.
  End Complete.
End Ends.
