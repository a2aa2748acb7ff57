(** C30: prerequisites are looked for before the plan is entered. *)
From Verif Require Import Base M_Implicit S_Implicit P_Implicit P_Implicit2 P_Implicit3 P_Implicit6 S_Timely.
Open Scope string_scope.
Open Scope list_scope.
Open Scope nat_scope.

Lemma starts_refl {A} (a : list A) : starts a a. Proof. exists []. symmetry. apply app_nil_r. Qed.
Lemma starts_trans {A} (a b c : list A) : starts a b -> starts b c -> starts a c.
Proof. intros [x ->] [y ->]. exists (x ++ y). symmetry. apply app_assoc. Qed.
Lemma starts_app {A} (a b : list A) : starts a (a ++ b). Proof. exists b. reflexivity. Qed.

Section Proof.
  Variable rules : list rule.
  Hypothesis WF : forall r, In r rules -> well_formed r.
  Variable path_max : nat.
  Variable parse : str -> list str.
  Variable lookup exists_p : str -> bool.
  Variable vpath : list str -> str -> bool.
  Notation had := (had lookup exists_p vpath).
  Notation timely := (timely rules lookup exists_p vpath).
  Notation try_list := (try_list lookup exists_p vpath).

  Lemma available_iff s expl n : available lookup exists_p vpath s expl n = true <-> had (s_files s) expl n.
  Proof. unfold available, S_Implicit.had. rewrite !orb_true_iff, !mem_iff. tauto. Qed.
  (** The prerequisites so far. *)
  Definition so_far (F expl : list str) (pat : pats) (mid : list str) : Prop :=
    (forall n o, In (n, o, None) pat -> exists f, starts F f /\ starts f mid /\ had f expl n) /\
    (forall n o p, In (n, o, Some p) pat -> exists f g, starts F f /\ starts g mid /\ ~ had f expl n /\ timely false f [] p g).
  Lemma so_far_later F expl pat mid mid' : starts mid mid' -> so_far F expl pat mid -> so_far F expl pat mid'.
  Proof.
    intros S1 [A B]. split.
    - intros n o I. destruct (A n o I) as (f & H1 & H2 & H3). exists f. split; [exact H1|]. split; [exact (starts_trans _ _ _ H2 S1)|exact H3].
    - intros n o p I. destruct (B n o p I) as (f & g & H1 & H2 & H3). exists f, g. split; [exact H1|]. split; [exact (starts_trans _ _ _ H2 S1)|exact H3].
  Qed.
  Section Rec.
    Variable rec : nat -> str -> sstate -> option (sstate * option plan).
    Hypothesis REC : forall i n s s' res, rec i n s = Some (s', res) -> starts (s_files s) (s_files s') /\ forall p, res = Some p -> timely false (s_files s) [] p (s_files s').
    Lemma try_list_timely F i io expl : forall l s pat a s' pat', starts F (s_files s) -> so_far F expl pat (s_files s) -> try_list (rec i) io expl l s pat = (a, s', pat') ->
      starts (s_files s) (s_files s') /\ so_far F expl pat' (s_files s').
    Proof.
      induction l as [|[n o] l IH]; intros s pat a s' pat' ST SF H; cbn [P_Implicit2.try_list] in H; [injection H as <- <- <-; split; [apply starts_refl|exact SF]|].
      destruct (mem n (s_impossible s)); [injection H as <- <- <-; split; [apply starts_refl|exact SF]|]. destruct (available lookup exists_p vpath s expl n) eqn:AV.
      { apply IH in H; [exact H|exact ST|]. destruct SF as [A B]. split.
        - intros m o' K. apply in_app_or in K. destruct K as [K|[K|[]]]; [exact (A m o' K)|]. injection K as <- <-. exists (s_files s). split; [exact ST|]. split; [apply starts_refl|apply available_iff; exact AV].
        - intros m o' q K. apply in_app_or in K. destruct K as [K|[K|[]]]; [exact (B m o' q K)|discriminate]. }
      destruct io; [|injection H as <- <- <-; split; [apply starts_refl|exact SF]].
      destruct (rec i n s) as [[s1 [p|]]|] eqn:R; [| |injection H as <- <- <-; split; [apply starts_refl|exact SF]]; destruct (REC _ _ _ _ _ R) as [G T].
      - apply IH in H; [destruct H as [H1 H2]; split; [exact (starts_trans _ _ _ G H1)|exact H2]|exact (starts_trans _ _ _ ST G)|]. pose proof (so_far_later _ _ _ _ _ G SF) as [A B]. split.
        + intros m o' K. apply in_app_or in K. destruct K as [K|[K|[]]]; [exact (A m o' K)|discriminate].
        + intros m o' q K. apply in_app_or in K. destruct K as [K|[K|[]]]; [exact (B m o' q K)|]. injection K as <- <- <-. exists (s_files s), (s_files s1). split; [exact ST|]. split; [apply starts_refl|].
          split; [rewrite <- available_iff, AV; discriminate|exact (T p eq_refl)].
      - injection H as <- <- <-. cbn [s_files]. split; [exact G|]. exact (so_far_later _ _ _ _ _ G SF).
    Qed.
    Lemma one_pass_timely F name pl io expl : forall ts s pat s' pat' f l, starts F (s_files s) ->
      one_pass path_max parse lookup exists_p vpath rec name pl io expl ts s pat = Some (s', pat', f, l) ->
      starts (s_files s) (s_files s') /\ (forall t, In t l -> In t ts) /\ forall t, f = Some t -> In t ts /\ (r_deps (t_rule t) <> [] -> so_far F expl pat' (s_files s')).
    Proof.
      induction ts as [|t ts IH]; intros s pat s' pat' f l ST H; cbn [one_pass] in H; [injection H as <- <- <- <-; split; [apply starts_refl|split; [intros t []|discriminate]]|].
      assert (SK : forall s1 pat1, starts F (s_files s1) ->
                   match one_pass path_max parse lookup exists_p vpath rec name pl io expl ts s1 pat1 with Some (s', pat', f, l) => Some (s', pat', f, t :: l) | None => None end = Some (s', pat', f, l) ->
                   starts (s_files s1) (s_files s') /\ (forall u, In u l -> In u (t :: ts)) /\ forall u, f = Some u -> In u (t :: ts) /\ (r_deps (t_rule u) <> [] -> so_far F expl pat' (s_files s'))).
      { intros s1 pat1 S1 E. destruct (one_pass path_max parse lookup exists_p vpath rec name pl io expl ts s1 pat1) as [[[[s2 p2] f2] l2]|] eqn:O; [|discriminate]. injection E as <- <- <- <-.
        destruct (IH _ _ _ _ _ _ S1 O) as (G & IL & K). split; [exact G|]. split; [intros u [<-|Hu]; [left; reflexivity|right; exact (IL u Hu)]|]. intros u Hu. destruct (K u Hu). split; [right; assumption|assumption]. }
      destruct (io && r_terminal (t_rule t)); [exact (SK _ _ ST H)|]. destruct (path_max <? full_len pl t); [exact (SK _ _ ST H)|].
      destruct (r_deps (t_rule t)) as [|d ds] eqn:DS.
      { injection H as <- <- <- <-. split; [apply starts_refl|]. split; [auto|]. intros u Hu. injection Hu as <-. split; [left; reflexivity|congruence]. }
      rewrite try_deps_list in H. destruct (try_list (rec (t_index t)) io expl (names_from parse name pl t (d :: ds)) s []) as [[a s1] pat1] eqn:T.
      apply (try_list_timely F) in T; [|exact ST|split; intros n o; intros; contradiction]. destruct T as [T1 T2]. destruct a; [| | |discriminate].
      - injection H as <- <- <- <-. split; [exact T1|]. split; [auto|]. intros u Hu. injection Hu as <-. split; [left; reflexivity|]. intros _. exact T2.
      - destruct (SK _ _ (starts_trans _ _ _ ST T1) H) as (K1 & K2). split; [exact (starts_trans _ _ _ T1 K1)|exact K2].
      - destruct (IH _ _ _ _ _ _ (starts_trans _ _ _ ST T1) H) as (K1 & KL & K2). split; [exact (starts_trans _ _ _ T1 K1)|]. split; [intros u Hu; right; exact (KL u Hu)|].
        intros u Hu. destruct (K2 u Hu). split; [right; assumption|assumption].
    Qed.
  End Rec.
  Lemma finish_timely F expl name pl re s pat t s' p : starts F (s_files s) -> nth_error rules (t_index t) = Some (t_rule t) -> (r_deps (t_rule t) <> [] -> so_far F expl pat (s_files s)) ->
    finish name pl re s pat t = (s', p) -> timely (negb re) F expl p (s_files s').
  Proof.
    intros ST NT SF H. unfold finish in H. injection H as <- <-. cbn [s_files]. set (also := also_make _ _ _). set (stem := _ ++ _).
    assert (SF' : has_prereqs rules (t_index t) -> so_far F expl pat (s_files s)). { intros (r & N & NE). rewrite NT in N. injection N as <-. exact (SF NE). }
    apply ti_plan; [exact ST| | | | | |].
    - intros n I. apply in_app_or in I. destruct I as [I|I]; [|apply me_also; exact I]. unfold entered in I. apply in_flat_map in I. destruct I as ([[m o] sub] & J & I). apply in_rev in J.
      apply in_app_or in I. destruct I as [I|I].
      + destruct sub as [q|]; [|destruct I]. destruct I as [<-|I]; [exact (me_dep _ _ _ _ _ _ _ _ J)|]. destruct q as [qi qt qs qd qa]. cbn [plan_deps] in I. apply in_map_iff in I. destruct I as ([[y oy] sy] & <- & I).
        exact (me_sub _ _ _ _ _ _ _ _ _ J (me_dep _ _ _ _ _ _ _ _ I)).
      + destruct re; [destruct I|]. destruct I as [<-|[]]. exact (me_dep _ _ _ _ _ _ _ _ J).
    - intros n I. apply in_or_app. right. exact I.
    - intros n o q I.
      assert (EN : forall x, In x (n :: plan_deps q) -> In x (entered re pat ++ also)).
      { intros x X. apply in_or_app. left. unfold entered. apply in_flat_map. exists (n, o, Some q). split; [apply in_rev in I; exact I|]. apply in_or_app. left. exact X. }
      split; [apply EN; left; reflexivity|]. intros m o' x J. apply EN. right. destruct q as [qi qt qs qd qa]. cbn [plan_deps deps_of] in *. apply in_map_iff. exists (m, o', x). auto.
    - intros HP. exact (proj1 (SF' HP)).
    - intros HP. exact (proj2 (SF' HP)).
    - intros RE n o x I. destruct re; [discriminate|]. apply in_or_app. left. unfold entered. apply in_flat_map. exists (n, o, x). split; [apply in_rev in I; exact I|]. apply in_or_app. right. left. reflexivity.
  Qed.
  Theorem search_timely : forall fuel U re arch name expl s s' res, pattern_search rules path_max parse lookup exists_p vpath fuel U re arch name expl s = Some (s', res) ->
    starts (s_files s) (s_files s') /\ forall p, res = Some p -> timely (negb re) (s_files s) expl p (s_files s').
  Proof.
    induction fuel as [|fuel IH]; intros U re arch name expl s s' res H; [discriminate|]. cbn [pattern_search] in H. set (pl := pathlen arch name) in *. set (ts := candidates name pl re U rules) in *.
    set (rec := fun (i : nat) (n : str) (s : sstate) => pattern_search rules path_max parse lookup exists_p vpath fuel (i :: U) true false n [] s) in *.
    assert (REC : forall i n s s' res, rec i n s = Some (s', res) -> starts (s_files s) (s_files s') /\ forall p, res = Some p -> timely false (s_files s) [] p (s_files s')) by (intros i n s0 s0' r0 R; exact (IH _ _ _ _ _ _ _ _ R)).
    assert (NT : forall t, In t ts -> nth_error rules (t_index t) = Some (t_rule t)).
    { intros t Ht. destruct (candidates_stand rules WF U re arch name t Ht) as (prefix & st & _ & ((tgt & C) & _) & _). exact (proj1 C). }
    destruct (one_pass path_max parse lookup exists_p vpath rec name pl false expl ts s []) as [[[[s1 pat] f1] ts1]|] eqn:O; [|discriminate]; apply (one_pass_timely rec REC (s_files s)) in O; [|apply starts_refl].
    destruct O as (O1 & OL & O2). assert (FG : forall s pat t s' p, finish name pl re s pat t = (s', p) -> starts (s_files s) (s_files s')) by (intros q1 q2 q3 q4 q5 F; unfold finish in F; injection F as <- _; apply starts_app).
    destruct f1 as [t|].
    - destruct (finish name pl re s1 pat t) as [s2 p] eqn:F. injection H as <- <-. destruct (O2 t eq_refl) as [K1 K2]. split; [exact (starts_trans _ _ _ O1 (FG _ _ _ _ _ F))|]. intros p' Hp. injection Hp as <-.
      exact (finish_timely _ _ _ _ _ _ _ _ _ _ O1 (NT t K1) K2 F).
    - destruct (one_pass path_max parse lookup exists_p vpath rec name pl true expl ts1 s1 []) as [[[[s2 pat2] f2] ts2]|] eqn:O'; [|discriminate]. apply (one_pass_timely rec REC (s_files s)) in O'; [|exact O1].
      destruct O' as (O3 & _ & O4). pose proof (starts_trans _ _ _ O1 O3) as O5. destruct f2 as [t|].
      + destruct (finish name pl re s2 pat2 t) as [s3 p] eqn:F. injection H as <- <-. destruct (O4 t eq_refl) as [K1 K2]. split; [exact (starts_trans _ _ _ O5 (FG _ _ _ _ _ F))|]. intros p' Hp. injection Hp as <-.
        exact (finish_timely _ _ _ _ _ _ _ _ _ _ O5 (NT t (OL t K1)) K2 F).
      + injection H as <- <-. split; [exact O5|discriminate].
  Qed.
End Proof.

(** A prerequisite of the rule found either can be had before anything of the plan is entered, or cannot and is made by the rule found for it, at every depth of the chain. *)
Theorem C30_timely : forall rules path_max parse lookup exists_p vpath fuel arch name expl s s' p,
  (forall r, In r rules -> well_formed r) ->
  pattern_search rules path_max parse lookup exists_p vpath fuel [] false arch name expl s = Some (s', Some p) ->
  timely rules lookup exists_p vpath true (s_files s) expl p (s_files s').
Proof. intros rules path_max parse lookup exists_p vpath fuel arch name expl s s' p WF H. exact (proj2 (search_timely rules WF path_max parse lookup exists_p vpath _ _ _ _ _ _ _ _ _ H) p eq_refl). Qed.
Print Assumptions C30_timely.

(** A chain: foo.c is not had, so it is made from foo.y, which is. *)
Example C30_timely_example :
  let rules := [mkrule [(s2l "%.o", 0)] [mkpdep (s2l "%.c") false] (Some 1) false; mkrule [(s2l "%.c", 0)] [mkpdep (s2l "%.y") false] (Some 2) false] in
  (forall r, In r rules -> well_formed r) /\
  pattern_search rules 4096 (fun x => [x]) (fun _ => false) (fun n => str_eqb n (s2l "foo.y")) (fun _ _ => false) 3 [] false false (s2l "foo.o") [] (mkst [] [])
  = Some (mkst [s2l "foo.c"; s2l "foo.y"; s2l "foo.c"] [], Some (Plan 0 0 (s2l "foo") [(s2l "foo.c", false, Some (Plan 1 0 (s2l "foo") [(s2l "foo.y", false, None)] []))] [])).
Proof.
  split; [|vm_compute; reflexivity]. intros r [<-|[<-|[]]]; intros t [<-|[]]; [exists [], (s2l ".o")|exists [], (s2l ".c")]; split; reflexivity.
Qed.
