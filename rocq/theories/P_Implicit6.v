From Verif Require Import Base M_Implicit S_Implicit P_Implicit P_Implicit2 P_Implicit3.

(** What a plan mentions has been entered in the table of files. *)
Section Entered.
  Variable rules : list rule.
  Variable path_max : nat.
  Variable parse : str -> list str.
  Variable lookup exists_p : str -> bool.
  Variable vpath : list str -> str -> bool.
  Notation try_list := (try_list lookup exists_p vpath).

  Definition below (s s' : sstate) : Prop := incl (s_files s) (s_files s').
  (** An intermediate prerequisite: all but its own direct prerequisites has been entered. *)
  Definition inner (s' : sstate) (p : plan) : Prop :=
    match p with Plan _ _ _ deps also => incl also (s_files s') /\ forall n o q, In (n, o, Some q) deps -> In n (s_files s') /\ forall m, mentions q m -> In m (s_files s') end.
  Lemma inner_mono : forall s s' p, below s s' -> inner s p -> inner s' p.
  Proof.
    intros s s' [i ti st deps also] B [H1 H2]. split; [exact (incl_tran H1 B)|]. intros n o q H. destruct (H2 n o q H) as [A K]. split; [apply B; exact A|]. intros m M. apply B. exact (K m M).
  Qed.
  Definition pats_ok (s' : sstate) (pat : pats) : Prop := forall n o q, In (n, o, Some q) pat -> inner s' q.

  Section Rec.
    Variable rec : nat -> str -> sstate -> option (sstate * option plan).
    Hypothesis REC : forall i n s s' res, rec i n s = Some (s', res) -> below s s' /\ forall p, res = Some p -> inner s' p.
    Lemma try_list_in : forall i io expl l s pat a s' pat', try_list (rec i) io expl l s pat = (a, s', pat') -> pats_ok s pat -> below s s' /\ pats_ok s' pat'.
    Proof.
      intros i io expl. induction l as [|[n o] l IH]; intros s pat a s' pat' H P; cbn [P_Implicit2.try_list] in H; [injection H as <- <- <-; split; [apply incl_refl|exact P]|].
      assert (ST : below s s /\ pats_ok s pat) by (split; [apply incl_refl|exact P]).
      destruct (mem n (s_impossible s)); [injection H as <- <- <-; exact ST|]. destruct (available lookup exists_p vpath s expl n).
      { apply IH in H; [exact H|]. intros m o' q K. apply in_app_or in K. destruct K as [K|[K|[]]]; [exact (P m o' q K)|discriminate]. }
      destruct io; [|injection H as <- <- <-; exact ST]. destruct (rec i n s) as [[s1 [p|]]|] eqn:R; [| |injection H as <- <- <-; exact ST]; destruct (REC _ _ _ _ _ R) as [B I].
      - apply IH in H; [destruct H as [H1 H2]; split; [exact (incl_tran B H1)|exact H2]|]. intros m o' q K. apply in_app_or in K. destruct K as [K|[K|[]]]; [exact (inner_mono _ _ _ B (P m o' q K))|]. injection K as <- <- <-. exact (I p eq_refl).
      - injection H as <- <- <-. split; [exact B|]. intros m o' q K. exact (inner_mono s _ _ B (P m o' q K)).
    Qed.
    Lemma one_pass_in : forall name pl io expl ts s pat s' pat' f l, one_pass path_max parse lookup exists_p vpath rec name pl io expl ts s pat = Some (s', pat', f, l) -> pats_ok s pat ->
      below s s' /\ pats_ok s' pat'.
    Proof.
      intros name pl io expl. induction ts as [|t ts IH]; intros s pat s' pat' f l H P; cbn [one_pass] in H; [injection H as <- <- <- <-; split; [apply incl_refl|exact P]|].
      assert (SK : forall s1 pat1, match one_pass path_max parse lookup exists_p vpath rec name pl io expl ts s1 pat1 with Some (s', pat', f, l) => Some (s', pat', f, t :: l) | None => None end = Some (s', pat', f, l) ->
                   pats_ok s1 pat1 -> below s1 s' /\ pats_ok s' pat').
      { intros s1 pat1 E P1. destruct (one_pass path_max parse lookup exists_p vpath rec name pl io expl ts s1 pat1) as [[[[s2 p2] f2] l2]|] eqn:O; [|discriminate]. injection E as <- <- <- _. exact (IH _ _ _ _ _ _ O P1). }
      destruct (io && r_terminal (t_rule t)); [exact (SK _ _ H P)|]. destruct (path_max <? full_len pl t); [exact (SK _ _ H P)|].
      destruct (r_deps (t_rule t)) as [|d ds]; [injection H as <- <- <- <-; split; [apply incl_refl|exact P]|]. rewrite try_deps_list in H.
      destruct (try_list (rec (t_index t)) io expl (names_from parse name pl t (d :: ds)) s []) as [[a s1] pat1] eqn:T. apply try_list_in in T; [|intros n o q []]. destruct T as [T1 T2].
      destruct a; [injection H as <- <- <- <-; auto| | |discriminate].
      - destruct (SK _ _ H T2) as [K1 K2]. split; [exact (incl_tran T1 K1)|exact K2].
      - destruct (IH _ _ _ _ _ _ H T2) as [K1 K2]. split; [exact (incl_tran T1 K1)|exact K2].
    Qed.
  End Rec.

  Lemma inner_all : forall s p, inner s p -> incl (plan_deps p) (s_files s) -> forall m, mentions p m -> In m (s_files s).
  Proof.
    intros s p I D m M. destruct M as [i ti st deps also n o x H|i ti st deps also n H|i ti st deps also n o q m H M].
    - apply D. cbn [plan_deps]. apply in_map_iff. exists (n, o, x). auto.
    - apply (proj1 I). exact H.
    - exact (proj2 (proj2 I n o q H) m M).
  Qed.
  Lemma finish_in : forall name pl re s pat t s' p, finish name pl re s pat t = (s', p) -> pats_ok s pat -> below s s' /\ inner s' p /\ (re = false -> incl (plan_deps p) (s_files s')).
  Proof.
    intros name pl re s pat t s' p H P. unfold finish in H. injection H as <- <-. cbn [s_files].
    set (also := also_make _ _ _). assert (B : below s (mkst (s_files s ++ entered re pat ++ also) (s_impossible s))) by (intros x Hx; apply in_or_app; left; exact Hx).
    assert (EN : forall n o sub, In (n, o, sub) pat -> forall x, In x (match sub with Some p => n :: plan_deps p | None => [] end ++ if re then [] else [n]) -> In x (s_files s ++ entered re pat ++ also)).
    { intros n o sub H x Hx. apply in_or_app. right. apply in_or_app. left. unfold entered. apply in_flat_map. exists (n, o, sub). split; [apply in_rev in H; exact H|exact Hx]. }
    split; [exact B|]. split; [split|].
    - intros x Hx. apply in_or_app. right. apply in_or_app. right. exact Hx.
    - intros n o q H. split; [apply (EN n o (Some q) H); left; reflexivity|]. apply inner_all; [exact (inner_mono _ _ _ B (P n o q H))|]. intros x Hx. apply (EN n o (Some q) H). right. apply in_or_app. left. exact Hx.
    - intros -> x Hx. cbn [plan_deps] in Hx. apply in_map_iff in Hx. destruct Hx as ([[n o] sub] & <- & Hx). apply (EN n o sub Hx). apply in_or_app. right. left. reflexivity.
  Qed.
  Theorem search_in : forall fuel U re arch name expl s s' res, pattern_search rules path_max parse lookup exists_p vpath fuel U re arch name expl s = Some (s', res) ->
    below s s' /\ forall p, res = Some p -> inner s' p /\ (re = false -> incl (plan_deps p) (s_files s')).
  Proof.
    induction fuel as [|fuel IH]; intros U re arch name expl s s' res H; [discriminate|]. cbn [pattern_search] in H. set (pl := pathlen arch name) in *. set (ts := candidates name pl re U rules) in *.
    set (rec := fun (i : nat) (n : str) (s : sstate) => pattern_search rules path_max parse lookup exists_p vpath fuel (i :: U) true false n [] s) in *.
    assert (REC : forall i n s s' res, rec i n s = Some (s', res) -> below s s' /\ forall p, res = Some p -> inner s' p).
    { intros i n s0 s0' r0 R. apply IH in R. destruct R as [R1 R2]. split; [exact R1|]. intros p Hp. exact (proj1 (R2 p Hp)). }
    destruct (one_pass path_max parse lookup exists_p vpath rec name pl false expl ts s []) as [[[[s1 pat] [t|]] ts1]|] eqn:O; [| |discriminate]; apply (one_pass_in rec REC) in O; try (intros n o q []); destruct O as [O1 O2].
    - destruct (finish name pl re s1 pat t) as [s2 p] eqn:F. injection H as <- <-. apply finish_in in F; [|exact O2]. destruct F as (F1 & F2 & F3). split; [exact (incl_tran O1 F1)|]. intros p' Hp. injection Hp as <-. auto.
    - destruct (one_pass path_max parse lookup exists_p vpath rec name pl true expl ts1 s1 []) as [[[[s2 pat2] [t|]] ts2]|] eqn:O'; [| |discriminate]; apply (one_pass_in rec REC) in O'; try (intros n o q []); destruct O' as [O3 O4].
      + destruct (finish name pl re s2 pat2 t) as [s3 p] eqn:F. injection H as <- <-. apply finish_in in F; [|exact O4]. destruct F as (F1 & F2 & F3). split; [exact (incl_tran O1 (incl_tran O3 F1))|]. intros p' Hp. injection Hp as <-. auto.
      + injection H as <- <-. split; [exact (incl_tran O1 O3)|discriminate].
  Qed.
End Entered.
