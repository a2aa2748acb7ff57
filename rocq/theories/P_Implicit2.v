From Verif Require Import Base M_Implicit S_Implicit P_Implicit.
From Coq Require Import Sorted.

Lemma mem_iff : forall n l, mem n l = true <-> In n l.
Proof.
  intros n l. unfold mem. rewrite existsb_exists. split.
  - intros (x & H & E). apply str_eqb_eq in E. subst x. exact H.
  - intros H. exists n. split; [exact H|apply str_eqb_eq; reflexivity].
Qed.

(** ** Prerequisites *)

Lemma at_percent_spec : forall s, match at_percent s with
  | None => ~ In c_percent s
  | Some (a, b) => s = a ++ c_percent :: b /\ ~ In c_percent a
  end.
Proof.
  induction s as [|c s IH]; [intros []|]. cbn [at_percent]. destruct (c =?c c_percent) eqn:E.
  - apply Ascii.eqb_eq in E. subst c. split; [reflexivity|intros []].
  - assert (NE : c <> c_percent) by (intros ->; rewrite Ascii.eqb_refl in E; discriminate).
    destruct (at_percent s) as [[a b]|]; cbn [option_map fst snd].
    + destruct IH as [-> N]. split; [reflexivity|]. intros [K|K]; [exact (NE K)|exact (N K)].
    + intros [K|K]; [exact (NE K)|exact (IH K)].
Qed.
Lemma first_percent_unique : forall a b a' b', a ++ c_percent :: b = a' ++ c_percent :: b' -> ~ In c_percent a -> ~ In c_percent a' -> a = a' /\ b = b'.
Proof.
  induction a as [|c a IH]; intros b [|c' a'] b' E N N'; cbn [app] in E.
  - injection E as ->. auto.
  - injection E as <- _. exfalso. apply N'. left. reflexivity.
  - injection E as -> _. exfalso. apply N. left. reflexivity.
  - injection E as <- E. destruct (IH b a' b' E) as [-> ->]; [intros K; apply N; right; exact K|intros K; apply N'; right; exact K|auto].
Qed.
Lemma instance_unique : forall prefix st n x y, instance prefix st n x -> instance prefix st n y -> x = y.
Proof.
  intros prefix st n x y H H'. inversion H as [m N E1 E2|a b N E1 E2]; subst; inversion H' as [m' N' F1 F2|a' b' N' F1 F2]; subst; try reflexivity.
  - exfalso. apply N. apply in_or_app. right. left. reflexivity.
  - exfalso. apply N'. apply in_or_app. right. left. reflexivity.
  - destruct (first_percent_unique _ _ _ _ F1 N' N) as [-> ->]. reflexivity.
Qed.

Section Search.
  Variable rules : list rule.
  Hypothesis WF : forall r, In r rules -> well_formed r.
  Variable path_max : nat.
  Variable parse : str -> list str.
  Variable lookup exists_p : str -> bool.
  Variable vpath : list str -> str -> bool.
  Notation avail := (available lookup exists_p vpath).

  Definition names_from name pl t (ds : list pdep) : list (str * bool) :=
    flat_map (fun d => map (fun n => (n, pd_order d)) (parse (dep_text name pl t d))) ds.
  Definition names_of name pl t : list (str * bool) := names_from name pl t (r_deps (t_rule t)).

  Lemma dep_text_instance : forall archive name t i ti r prefix st, stands archive name t i ti r prefix st ->
    forall d, instance prefix st (pd_name d) (dep_text name (pathlen archive name) t d).
  Proof.
    intros archive name t i ti r prefix st (_ & _ & _ & E) d. unfold stems, stem_parts in E. injection E as E1 E2. unfold dep_text, stem_of_try. rewrite E1, E2.
    pose proof (at_percent_spec (pd_name d)) as A. destruct (at_percent (pd_name d)) as [[a b]|].
    - destruct A as [-> N]. apply i_stem. exact N.
    - apply i_plain. exact A.
  Qed.
  Lemma names_of_needs : forall archive name t i ti r prefix st, stands archive name t i ti r prefix st ->
    forall n, needs parse r prefix st n <-> exists o, In (n, o) (names_of name (pathlen archive name) t).
  Proof.
    intros archive name t i ti r prefix st ST n. pose proof (dep_text_instance _ _ _ _ _ _ _ _ ST) as DI. destruct ST as (_ & _ & E & _). subst r. unfold needs, names_of, names_from. split.
    - intros (d & x & H1 & H2 & H3). exists (pd_order d). apply in_flat_map. exists d. split; [exact H1|]. apply in_map_iff. exists n. split; [reflexivity|].
      rewrite <- (instance_unique _ _ _ _ _ H2 (DI d)). exact H3.
    - intros (o & H). apply in_flat_map in H. destruct H as (d & H1 & H2). apply in_map_iff in H2. destruct H2 as (m & E & H2). injection E as -> <-.
      exists d, (dep_text name (pathlen archive name) t d). split; [exact H1|]. split; [apply DI|exact H2].
  Qed.
  Lemma names_of_needed : forall archive name t i ti r prefix st, stands archive name t i ti r prefix st ->
    needed parse prefix st (r_deps r) (names_of name (pathlen archive name) t).
  Proof.
    intros archive name t i ti r prefix st ST. pose proof (dep_text_instance _ _ _ _ _ _ _ _ ST) as DI. destruct ST as (_ & _ & E & _). subst r. unfold names_of.
    generalize (r_deps (t_rule t)). intros ds. induction ds as [|d ds IH]; [apply n_nil|]. cbn [names_from flat_map]. apply n_cons; [apply DI|exact IH].
  Qed.

  (** ** One rule *)

  Fixpoint try_list (rec : str -> sstate -> option (sstate * option plan)) (io : bool) (expl : list str) (l : list (str * bool)) (s : sstate) (pat : pats) : attempt * sstate * pats :=
    match l with
    | [] => (Applies, s, pat)
    | (n, o) :: l' =>
        if mem n (s_impossible s) then (Impossible, s, pat)
        else if avail s expl n then try_list rec io expl l' s (pat ++ [(n, o, None)])
        else if io then
          match rec n s with
          | None => (OutOfFuel, s, pat)
          | Some (s', Some p) => try_list rec io expl l' s' (pat ++ [(n, o, Some p)])
          | Some (s', None) => (Fails, mkst (s_files s') (n :: s_impossible s'), pat)
          end
        else (Fails, s, pat)
    end.
  Lemma try_names_list : forall rec io o expl ns s pat, try_names lookup exists_p vpath rec io o expl ns s pat = try_list rec io expl (map (fun n => (n, o)) ns) s pat.
  Proof.
    intros rec io o expl. induction ns as [|n ns IH]; intros s pat; [reflexivity|]. cbn [try_names map try_list]. destruct (mem n (s_impossible s)); [reflexivity|].
    destruct (avail s expl n); [apply IH|]. destruct io; [|reflexivity]. destruct (rec n s) as [[s' [p|]]|]; [apply IH|reflexivity|reflexivity].
  Qed.
  Lemma try_list_app : forall rec io expl l1 l2 s pat, try_list rec io expl (l1 ++ l2) s pat =
    match try_list rec io expl l1 s pat with (Applies, s', pat') => try_list rec io expl l2 s' pat' | r => r end.
  Proof.
    intros rec io expl. induction l1 as [|[n o] l1 IH]; intros l2 s pat; [reflexivity|]. cbn [app try_list]. destruct (mem n (s_impossible s)); [reflexivity|].
    destruct (avail s expl n); [apply IH|]. destruct io; [|reflexivity]. destruct (rec n s) as [[s' [p|]]|]; [apply IH|reflexivity|reflexivity].
  Qed.
  Lemma try_deps_list : forall rec name pl t io expl ds s pat,
    try_deps parse lookup exists_p vpath rec name pl t io expl ds s pat = try_list rec io expl (names_from name pl t ds) s pat.
  Proof.
    intros rec name pl t io expl. induction ds as [|d ds IH]; intros s pat; [reflexivity|]. cbn [try_deps names_from flat_map]. rewrite try_list_app, try_names_list.
    destruct (try_list rec io expl (map (fun n => (n, pd_order d)) (parse (dep_text name pl t d))) s pat) as [[[| | |] s'] pat']; try reflexivity. apply IH.
  Qed.

  Definition ok (s : sstate) (expl : list str) (n : str) : Prop := ~ In n (s_impossible s) /\ avail s expl n = true.
  Definition plain (x : str * bool) : str * bool * option plan := (x, None).

  Lemma try_list_false : forall rec expl l s pat,
    ((forall n o, In (n, o) l -> ok s expl n) /\ try_list rec false expl l s pat = (Applies, s, pat ++ map plain l)) \/
    ((exists n o, In (n, o) l /\ ~ ok s expl n) /\ exists pat',
       try_list rec false expl l s pat = (Fails, s, pat') \/
       (try_list rec false expl l s pat = (Impossible, s, pat') /\ exists n o, In (n, o) l /\ In n (s_impossible s))).
  Proof.
    intros rec expl. induction l as [|[n o] l IH]; intros s pat.
    - left. split; [intros n o []|]. cbn [try_list map]. rewrite app_nil_r. reflexivity.
    - cbn [try_list]. destruct (mem n (s_impossible s)) eqn:M.
      + apply mem_iff in M. right. split; [exists n, o; split; [left; reflexivity|intros [K _]; exact (K M)]|]. exists pat. right. split; [reflexivity|]. exists n, o. split; [left; reflexivity|exact M].
      + assert (M' : ~ In n (s_impossible s)) by (rewrite <- mem_iff, M; discriminate). destruct (avail s expl n) eqn:A.
        * destruct (IH s (pat ++ [(n, o, None)])) as [[H1 H2]|[(n' & o' & H1 & H1') (pat' & H2)]].
          -- left. split; [intros n' o' [K|K]; [injection K as <- <-; split; assumption|exact (H1 n' o' K)]|]. rewrite H2, <- app_assoc. reflexivity.
          -- right. split; [exists n', o'; split; [right; exact H1|exact H1']|]. exists pat'. destruct H2 as [H2|[H2 (n2 & o2 & H3 & H4)]]; [left; exact H2|right; split; [exact H2|]].
             exists n2, o2. split; [right; exact H3|exact H4].
        * right. split; [exists n, o; split; [left; reflexivity|intros [_ K]; congruence]|]. exists pat. left. reflexivity.
  Qed.

  (** ** The first pass *)

  Definition good name pl s expl (t : tryrule) : Prop := full_len pl t <= path_max /\ forall n o, In (n, o) (names_of name pl t) -> ok s expl n.

  Lemma one_pass_false : forall rec name pl expl s ts pat, exists pat' f l,
    one_pass path_max parse lookup exists_p vpath rec name pl false expl ts s pat = Some (s, pat', f, l) /\
    match f with
    | Some t => exists ts1 ts2, ts = ts1 ++ t :: ts2 /\ good name pl s expl t /\ (forall u, In u ts1 -> ~ good name pl s expl u) /\
                (r_deps (t_rule t) <> [] -> pat' = map plain (names_of name pl t)) /\ (r_deps (t_rule t) = [] -> ts1 = [] -> pat' = pat)
    | None => (forall u, In u ts -> ~ good name pl s expl u) /\ (forall u, In u l -> In u ts) /\ (forall R, StronglySorted R ts -> StronglySorted R l) /\
              (forall u, In u ts -> In u l \/ exists n o, In (n, o) (names_of name pl u) /\ In n (s_impossible s))
    end.
  Proof.
    intros rec name pl expl s. induction ts as [|t ts IH]; intros pat.
    - exists pat, None, []. split; [reflexivity|]. split; [intros u []|]. split; [intros u []|]. split; [intros R H; exact H|intros u []].
    - cbn [one_pass]. cbn [andb].
      assert (SKIP : ~ good name pl s expl t -> forall pat0, exists pat' f l,
        match one_pass path_max parse lookup exists_p vpath rec name pl false expl ts s pat0 with Some (s', pat', f, l) => Some (s', pat', f, t :: l) | None => None end = Some (s, pat', f, l) /\
        match f with
        | Some u => exists ts1 ts2, t :: ts = ts1 ++ u :: ts2 /\ good name pl s expl u /\ (forall v, In v ts1 -> ~ good name pl s expl v) /\
                (r_deps (t_rule u) <> [] -> pat' = map plain (names_of name pl u)) /\ (r_deps (t_rule u) = [] -> ts1 = [] -> pat' = pat)
        | None => (forall u, In u (t :: ts) -> ~ good name pl s expl u) /\ (forall u, In u l -> In u (t :: ts)) /\ (forall R, StronglySorted R (t :: ts) -> StronglySorted R l) /\
              (forall u, In u (t :: ts) -> In u l \/ exists n o, In (n, o) (names_of name pl u) /\ In n (s_impossible s))
        end).
      { intros G pat0. destruct (IH pat0) as (pat' & f & l & E & H). rewrite E. exists pat', f, (t :: l). split; [reflexivity|]. destruct f as [u|].
        - destruct H as (ts1 & ts2 & -> & H1 & H2 & H3 & H4). exists (t :: ts1), ts2. split; [reflexivity|]. split; [exact H1|]. split; [intros v [<-|K]; [exact G|exact (H2 v K)]|].
          split; [exact H3|intros _ K; discriminate].
        - destruct H as (H1 & H2 & H3 & H4). split; [intros u [<-|K]; [exact G|exact (H1 u K)]|]. split; [intros u [<-|K]; [left; reflexivity|right; exact (H2 u K)]|]. split.
          + intros R K. inversion K as [|a b K1 K2]; subst. constructor; [exact (H3 R K1)|]. apply Forall_forall. intros x Hx. rewrite Forall_forall in K2. exact (K2 x (H2 x Hx)).
          + intros u [<-|K]; [left; left; reflexivity|]. destruct (H4 u K) as [K'|K']; [left; right; exact K'|right; exact K']. }
      destruct (path_max <? full_len pl t) eqn:PM.
      + apply Nat.ltb_lt in PM. apply SKIP. intros [K _]. lia.
      + apply Nat.ltb_ge in PM. destruct (r_deps (t_rule t)) as [|d ds] eqn:DS.
        * exists pat, (Some t), (t :: ts). split; [reflexivity|]. exists [], ts. split; [reflexivity|]. split.
          { split; [exact PM|]. unfold names_of. rewrite DS. intros n o []. }
          split; [intros u []|]. split; [intros K; congruence|intros _ _; reflexivity].
        * rewrite try_deps_list. change (names_from name pl t (d :: ds)) with (names_from name pl t (d :: ds)). rewrite <- DS. fold (names_of name pl t).
          destruct (try_list_false (rec (t_index t)) expl (names_of name pl t) s []) as [[H1 H2]|[(n & o & H1 & H1') (pat' & H2)]].
          -- rewrite H2. exists ([] ++ map plain (names_of name pl t)), (Some t), (t :: ts). split; [reflexivity|]. exists [], ts. split; [reflexivity|]. split; [split; [exact PM|exact H1]|].
             split; [intros u []|]. split; [intros _; reflexivity|intros K; congruence].
          -- assert (G : ~ good name pl s expl t) by (intros [_ K]; exact (H1' (K n o H1))). destruct H2 as [H2|[H2 IMP]]; rewrite H2; [apply SKIP; exact G|].
             destruct (IH pat') as (pat'' & f & l & E & H). rewrite E. exists pat'', f, l. split; [reflexivity|]. destruct f as [u|].
             ++ destruct H as (ts1 & ts2 & -> & K1 & K2 & K3 & K4). exists (t :: ts1), ts2. split; [reflexivity|]. split; [exact K1|]. split; [intros v [<-|K]; [exact G|exact (K2 v K)]|].
                split; [exact K3|intros _ K; discriminate].
             ++ destruct H as (K1 & K2 & K3 & K4). split; [intros u [<-|K]; [exact G|exact (K1 u K)]|]. split; [intros u K; right; exact (K2 u K)|]. split.
                ** intros R K. inversion K as [|a b K5 K6]; subst. exact (K3 R K5).
                ** intros u [<-|K]; [right; exact IMP|exact (K4 u K)].
  Qed.
End Search.
