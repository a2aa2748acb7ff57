From Verif Require Import Base M_Implicit S_Implicit P_Implicit P_Implicit2.
From Coq Require Import Sorted.

Definition prefix_of {A} (a b : list A) : Prop := exists c, b = a ++ c.
Lemma prefix_refl : forall A (a : list A), prefix_of a a.
Proof. intros A a. exists []. symmetry. apply app_nil_r. Qed.
Lemma prefix_trans : forall A (a b c : list A), prefix_of a b -> prefix_of b c -> prefix_of a c.
Proof. intros A a b c [x ->] [y ->]. exists (x ++ y). symmetry. apply app_assoc. Qed.

(** The other targets. *)
Lemma also_others : forall r ti stem, well_formed r -> others stem ti 0 (r_targets r) (also_make r ti stem).
Proof.
  intros r ti stem W. unfold also_make. unfold well_formed in W. revert W. generalize (r_targets r). intros ts W.
  assert (G : forall k, others stem ti k ts (flat_map (fun jt : nat * (str * nat) => let (j, t) := jt in
                if j =? ti then [] else [firstn (snd t) (fst t) ++ stem ++ skipn (S (snd t)) (fst t)]) (combine (seq k (length ts)) ts))).
  { induction ts as [|t ts IH]; intros k; cbn [length seq combine flat_map]; [apply o_nil|].
    assert (W' : forall u, In u ts -> exists pre suf, pattern u pre suf) by (intros u Hu; apply W; right; exact Hu). specialize (IH W').
    destruct (k =? ti) eqn:E.
    - apply Nat.eqb_eq in E. subst k. cbn [app]. apply o_same. apply IH.
    - apply Nat.eqb_neq in E. destruct (W t (or_introl eq_refl)) as (pre & suf & P). cbn [app]. pose proof P as [P1 P2].
      replace (firstn (snd t) (fst t)) with pre.
      2:{ rewrite P1, P2, firstn_app, firstn_all, Nat.sub_diag. symmetry. apply app_nil_r. }
      replace (skipn (S (snd t)) (fst t)) with suf.
      2:{ rewrite P1, P2, skipn_app, skipn_all2 by lia. replace (S (length pre) - length pre) with 1 by lia. reflexivity. }
      apply o_other; [exact E|exact P|apply IH]. }
  apply G.
Qed.

Section Search.
  Variable rules : list rule.
  Hypothesis WF : forall r, In r rules -> well_formed r.
  Variable path_max : nat.
  Variable parse : str -> list str.
  Variable lookup exists_p : str -> bool.
  Variable vpath : list str -> str -> bool.
  Notation avail := (available lookup exists_p vpath).
  Notation names_of := (names_of parse).
  Notation good := (good path_max parse lookup exists_p vpath).

  (** The whole search. *)
  Variable top : str.
  Variable arch0 : bool.
  Variable E0 M0 : list str.

  Definition av (E : list str) (expl : list str) (n : str) : bool := avail (mkst E []) expl n.
  Lemma av_avail : forall s expl n, avail s expl n = av (s_files s) expl n.
  Proof. reflexivity. Qed.

  Inductive reach : list nat -> bool -> bool -> str -> Prop :=
  | re_top : reach [] false arch0 top
  | re_step U rec arch m i ti r prefix st n : reach U rec arch m -> eligible rules U rec arch m i ti r prefix st -> r_terminal r = false -> needs parse r prefix st n ->
      reach (i :: U) true false n.

  Definition just (M : list str) (n : str) : Prop := exists U E, reach U true false n /\ prefix_of E0 E /\ av E [] n = false /\
    forall i ti r prefix st, eligible rules U true false n i ti r prefix st -> length (prefix ++ st) <= path_max ->
      (exists m, needs parse r prefix st m /\ (In m M \/ av E [] m = false)) /\
      (r_terminal r = false -> exists m, needs parse r prefix st m /\ In m M).
  Lemma just_mono : forall M M' n, incl M M' -> just M n -> just M' n.
  Proof.
    intros M M' n I (U & E & R & P & A & H). exists U, E. split; [exact R|]. split; [exact P|]. split; [exact A|]. intros i ti r prefix st EL L.
    destruct (H i ti r prefix st EL L) as [(m & N & K) K']. split.
    - exists m. split; [exact N|]. destruct K as [K|K]; [left; apply I; exact K|right; exact K].
    - intros T. destruct (K' T) as (m' & N' & K2). exists m'. auto.
  Qed.

  Definition grows (s s' : sstate) : Prop := prefix_of (s_files s) (s_files s') /\ incl (s_impossible s) (s_impossible s').
  Lemma grows_refl : forall s, grows s s.
  Proof. intros s. split; [apply prefix_refl|apply incl_refl]. Qed.
  Lemma grows_trans : forall a b c, grows a b -> grows b c -> grows a c.
  Proof. intros a b c [H1 H2] [H3 H4]. split; [exact (prefix_trans _ _ _ _ H1 H3)|exact (incl_tran H2 H4)]. Qed.
  Definition Inv (s : sstate) : Prop := prefix_of E0 (s_files s) /\ forall n, In n (s_impossible s) -> In n M0 \/ just (s_impossible s) n.

  Definition AV (F : list str) (expl : list str) (n : str) : Prop := exists E, prefix_of E F /\ av E expl n = true.
  Definition okp (s : sstate) (expl : list str) : (str -> Prop) * (str -> Prop) := ((fun n => avail s expl n = true), (fun n => In n (s_impossible s))).

  Definition Result (U : list nat) (rec arch : bool) (name : str) (expl : list str) (s s' : sstate) (res : option plan) : Prop :=
    match res with
    | None => forall i ti r prefix st, eligible rules U rec arch name i ti r prefix st -> length (prefix ++ st) <= path_max ->
        (exists m, needs parse r prefix st m /\ (In m (s_impossible s) \/ avail s expl m = false)) /\
        (r_terminal r = false -> exists m, needs parse r prefix st m /\ In m (s_impossible s'))
    | Some (Plan i ti stem deps also) => exists r prefix st, stem = prefix ++ st /\ eligible rules U rec arch name i ti r prefix st /\ length (prefix ++ st) <= path_max /\
        ((direct rules path_max parse (fun n => avail s expl n = true) (fun n => In n (s_impossible s)) U rec arch name i ti r prefix st /\
          (forall i' ti' r' prefix' st', sooner (length (prefix' ++ st')) i' ti' (length (prefix ++ st)) i ti ->
             ~ direct rules path_max parse (fun n => avail s expl n = true) (fun n => In n (s_impossible s)) U rec arch name i' ti' r' prefix' st') /\
          (r_deps r <> [] -> forall d, In d deps -> snd d = None)) \/
         (r_terminal r = false /\
          (forall i' ti' r' prefix' st', ~ direct rules path_max parse (fun n => avail s expl n = true) (fun n => In n (s_impossible s)) U rec arch name i' ti' r' prefix' st') /\
          (forall i' ti' r' prefix' st', eligible rules U rec arch name i' ti' r' prefix' st' -> length (prefix' ++ st') <= path_max -> r_terminal r' = false ->
             sooner (length (prefix' ++ st')) i' ti' (length (prefix ++ st)) i ti -> exists m, needs parse r' prefix' st' m /\ In m (s_impossible s')))) /\
        (r_deps r = [] -> deps = [] \/ exists i' ti' r' prefix' st', eligible rules U rec arch name i' ti' r' prefix' st' /\ sooner (length (prefix' ++ st')) i' ti' (length (prefix ++ st)) i ti) /\
        forall F, prefix_of (s_files s') F -> sound rules path_max parse (AV F) U rec arch name expl (Plan i ti stem deps also)
    end.

  Section Pass.
    Variable rec : nat -> str -> sstate -> option (sstate * option plan).
    Variable U : list nat.
    Hypothesis REC : forall i n s s' res, reach (i :: U) true false n -> rec i n s = Some (s', res) ->
      grows s s' /\ (Inv s -> Inv s') /\ Result (i :: U) true false n [] s s' res.

    Definition entry_ok (i : nat) (expl : list str) (s' : sstate) (d : str * bool * option plan) : Prop :=
      forall F, prefix_of (s_files s') F ->
      match snd d with
      | None => AV F expl (fst (fst d))
      | Some p => sound rules path_max parse (AV F) (i :: U) true false (fst (fst d)) [] p
      end.
    Lemma entry_ok_grows : forall i expl s s' d, prefix_of (s_files s) (s_files s') -> entry_ok i expl s d -> entry_ok i expl s' d.
    Proof. intros i expl s s' d P H F PF. apply H. exact (prefix_trans _ _ _ _ P PF). Qed.

    Lemma result_sound : forall U' re ar n expl s s' p, Result U' re ar n expl s s' (Some p) -> forall F, prefix_of (s_files s') F -> sound rules path_max parse (AV F) U' re ar n expl p.
    Proof. intros U' re ar n expl s s' [i ti stem deps also] (r & prefix & st & _ & _ & _ & _ & _ & H). exact H. Qed.

    Lemma try_list_true : forall i expl l s pat a s' pat', (forall n o, In (n, o) l -> reach (i :: U) true false n) ->
      try_list lookup exists_p vpath (rec i) true expl l s pat = (a, s', pat') -> a <> OutOfFuel ->
      grows s s' /\ (Inv s -> Inv s') /\
      match a with
      | Applies => exists q, pat' = pat ++ q /\ map fst q = l /\ forall d, In d q -> entry_ok i expl s' d
      | _ => exists n o, In (n, o) l /\ In n (s_impossible s')
      end.
    Proof.
      intros i expl. induction l as [|[n o] l IH]; intros s pat a s' pat' RE E NF; cbn [try_list] in E.
      - injection E as <- <- <-. split; [apply grows_refl|]. split; [auto|]. exists []. rewrite app_nil_r. split; [reflexivity|]. split; [reflexivity|intros d []].
      - destruct (mem n (s_impossible s)) eqn:M.
        { injection E as <- <- <-. apply mem_iff in M. split; [apply grows_refl|]. split; [auto|]. exists n, o. split; [left; reflexivity|exact M]. }
        assert (RE' : forall n' o', In (n', o') l -> reach (i :: U) true false n') by (intros n' o' H; apply (RE n' o'); right; exact H).
        destruct (avail s expl n) eqn:A.
        + destruct (IH _ _ _ _ _ RE' E NF) as (G & I & H). split; [exact G|]. split; [exact I|]. destruct a.
          * destruct H as (q & -> & Q1 & Q2). exists ((n, o, None) :: q). rewrite <- app_assoc. split; [reflexivity|]. cbn [map fst]. rewrite Q1. split; [reflexivity|].
            intros d [<-|Hd]; [|exact (Q2 d Hd)]. intros F PF. cbn [fst snd]. exists (s_files s). split; [exact (prefix_trans _ _ _ _ (proj1 G) PF)|]. rewrite <- av_avail. exact A.
          * destruct H as (n' & o' & H1 & H2). exists n', o'. split; [right; exact H1|exact H2].
          * destruct H as (n' & o' & H1 & H2). exists n', o'. split; [right; exact H1|exact H2].
          * congruence.
        + destruct (rec i n s) as [[s1 [p|]]|] eqn:R; [| |injection E as <- <- <-; congruence].
          * assert (RN := RE n o (or_introl eq_refl)). destruct (REC i n s s1 (Some p) RN R) as (G1 & I1 & S1).
            destruct (IH _ _ _ _ _ RE' E NF) as (G & I & H). split; [exact (grows_trans _ _ _ G1 G)|]. split; [auto|]. destruct a.
            -- destruct H as (q & -> & Q1 & Q2). exists ((n, o, Some p) :: q). rewrite <- app_assoc. split; [reflexivity|]. cbn [map fst]. rewrite Q1. split; [reflexivity|].
               intros d [<-|Hd]; [|exact (Q2 d Hd)]. intros F PF. cbn [fst snd]. apply (result_sound _ _ _ _ _ _ _ _ S1). exact (prefix_trans _ _ _ _ (proj1 G) PF).
            -- destruct H as (n' & o' & H1 & H2). exists n', o'. split; [right; exact H1|exact H2].
            -- destruct H as (n' & o' & H1 & H2). exists n', o'. split; [right; exact H1|exact H2].
            -- congruence.
          * injection E as <- <- <-. assert (RN := RE n o (or_introl eq_refl)). destruct (REC i n s s1 None RN R) as (G1 & I1 & S1).
            split; [split; cbn [s_files s_impossible]; [exact (proj1 G1)|intros x Hx; right; exact (proj2 G1 x Hx)]|]. split.
            -- intros IS. destruct (I1 IS) as [P1 J1]. split; [exact P1|]. cbn [s_impossible]. intros x [<-|Hx].
               ++ right. exists (i :: U), (s_files s). split; [exact RN|]. split; [exact (proj1 IS)|]. split.
                  ** rewrite av_avail in A. unfold av, available in *. apply orb_false_iff in A. destruct A as [A A4]. apply orb_false_iff in A. destruct A as [A A3]. apply orb_false_iff in A. destruct A as [_ A2].
                     cbn [s_files] in *. rewrite A2, A3, A4. reflexivity.
                  ** intros j ti r prefix st EL L. destruct (S1 j ti r prefix st EL L) as [(m & N & K) K']. split.
                     --- exists m. split; [exact N|]. destruct K as [K|K]; [left; right; exact (proj2 G1 m K)|right; exact K].
                     --- intros T. destruct (K' T) as (m' & N' & K2). exists m'. split; [exact N'|right; exact K2].
               ++ destruct (J1 x Hx) as [K|K]; [left; exact K|right]. apply (just_mono (s_impossible s1)); [|exact K]. intros y Hy. right. exact Hy.
            -- exists n, o. split; [left; reflexivity|left; reflexivity].
    Qed.

    Lemma one_pass_true : forall arch re name expl, let pl := pathlen arch name in reach U re arch name ->
      forall ts s pat s' pat' f l, (forall t, In t ts -> In t (candidates name pl re U rules)) ->
      one_pass path_max parse lookup exists_p vpath rec name pl true expl ts s pat = Some (s', pat', f, l) ->
      grows s s' /\ (Inv s -> Inv s') /\
      let failed u := r_terminal (t_rule u) = false -> full_len pl u <= path_max -> exists n o, In (n, o) (names_of name pl u) /\ In n (s_impossible s') in
      match f with
      | None => forall u, In u ts -> failed u
      | Some t => exists ts1 ts2, ts = ts1 ++ t :: ts2 /\ r_terminal (t_rule t) = false /\ full_len pl t <= path_max /\ (forall u, In u ts1 -> failed u) /\
          (r_deps (t_rule t) <> [] -> map fst pat' = names_of name pl t /\ forall d, In d pat' -> entry_ok (t_index t) expl s' d) /\
          (r_deps (t_rule t) = [] -> ts1 = [] -> pat' = pat)
      end.
    Proof.
      intros arch re name expl pl RE. induction ts as [|t ts IH]; intros s pat s' pat' f l INC E; cbn [one_pass] in E.
      { injection E as <- <- <- <-. split; [apply grows_refl|]. split; [auto|]. cbn zeta. intros u []. }
      assert (INC' : forall u, In u ts -> In u (candidates name pl re U rules)) by (intros u Hu; apply INC; right; exact Hu).
      cbn [andb] in E.
      (* a rule passed over *)
      assert (SKIP : forall s0 pat0 s1 pat1 f1 l1, one_pass path_max parse lookup exists_p vpath rec name pl true expl ts s0 pat0 = Some (s1, pat1, f1, l1) ->
        grows s s0 -> (Inv s -> Inv s0) -> (r_terminal (t_rule t) = false -> full_len pl t <= path_max -> exists n o, In (n, o) (names_of name pl t) /\ In n (s_impossible s0)) ->
        grows s s1 /\ (Inv s -> Inv s1) /\
        let failed u := r_terminal (t_rule u) = false -> full_len pl u <= path_max -> exists n o, In (n, o) (names_of name pl u) /\ In n (s_impossible s1) in
        match f1 with
        | None => forall u, In u (t :: ts) -> failed u
        | Some v => exists ts1 ts2, t :: ts = ts1 ++ v :: ts2 /\ r_terminal (t_rule v) = false /\ full_len pl v <= path_max /\ (forall u, In u ts1 -> failed u) /\
            (r_deps (t_rule v) <> [] -> map fst pat1 = names_of name pl v /\ forall d, In d pat1 -> entry_ok (t_index v) expl s1 d) /\
            (r_deps (t_rule v) = [] -> ts1 = [] -> pat1 = pat)
        end).
      { intros s0 pat0 s1 pat1 f1 l1 E1 G0 I0 FT. destruct (IH s0 pat0 s1 pat1 f1 l1 INC' E1) as (G & I & H). split; [exact (grows_trans _ _ _ G0 G)|]. split; [auto|]. cbn zeta in *.
        assert (FT' : r_terminal (t_rule t) = false -> full_len pl t <= path_max -> exists n o, In (n, o) (names_of name pl t) /\ In n (s_impossible s1)).
        { intros A B. destruct (FT A B) as (n & o & C & D). exists n, o. split; [exact C|exact (proj2 G n D)]. }
        destruct f1 as [v|].
        - destruct H as (ts1 & ts2 & -> & H1 & H2 & H3 & H4 & H5). exists (t :: ts1), ts2. split; [reflexivity|]. split; [exact H1|]. split; [exact H2|]. split; [intros u [<-|K]; [exact FT'|exact (H3 u K)]|].
          split; [exact H4|intros _ K; discriminate].
        - intros u [<-|K]; [exact FT'|exact (H u K)]. }
      destruct (r_terminal (t_rule t)) eqn:T.
      { destruct (one_pass path_max parse lookup exists_p vpath rec name pl true expl ts s pat) as [[[[s1 pat1] f1] l1]|] eqn:O; [|discriminate].
        injection E as <- <- <- <-. apply (SKIP s pat s1 pat1 f1 l1 O); [apply grows_refl|auto|congruence]. }
      destruct (path_max <? full_len pl t) eqn:PM.
      { apply Nat.ltb_lt in PM. destruct (one_pass path_max parse lookup exists_p vpath rec name pl true expl ts s pat) as [[[[s1 pat1] f1] l1]|] eqn:O; [|discriminate].
        injection E as <- <- <- <-. apply (SKIP s pat s1 pat1 f1 l1 O); [apply grows_refl|auto|intros _ K; lia]. }
      apply Nat.ltb_ge in PM. destruct (r_deps (t_rule t)) as [|d ds] eqn:DS.
      { injection E as <- <- <- <-. split; [apply grows_refl|]. split; [auto|]. cbn zeta. exists [], ts. split; [reflexivity|]. split; [exact T|]. split; [exact PM|]. split; [intros u []|].
        rewrite DS. split; [congruence|auto]. }
      rewrite try_deps_list, <- DS in E. fold (names_of name pl t) in E.
      destruct (candidates_stand rules WF U re arch name t (INC t (or_introl eq_refl))) as (prefix & st & ST & EL & FL).
      assert (RR : forall n o, In (n, o) (names_of name pl t) -> reach (t_index t :: U) true false n).
      { intros n o H. apply (re_step U re arch name _ _ _ prefix st n RE EL T). apply (names_of_needs parse arch name t _ _ _ _ _ ST). exists o. exact H. }
      destruct (try_list lookup exists_p vpath (rec (t_index t)) true expl (names_of name pl t) s []) as [[a s1] pat1] eqn:TL.
      destruct a.
      - injection E as <- <- <- <-. destruct (try_list_true _ _ _ _ _ _ _ _ RR TL ltac:(discriminate)) as (G & I & q & Q1 & Q2 & Q3). split; [exact G|]. split; [exact I|]. cbn zeta.
        exists [], ts. split; [reflexivity|]. split; [exact T|]. split; [exact PM|]. split; [intros u []|]. cbn [app] in Q1. subst q. split; [auto|]. rewrite DS. discriminate.
      - destruct (try_list_true _ _ _ _ _ _ _ _ RR TL ltac:(discriminate)) as (G & I & IMP).
        destruct (one_pass path_max parse lookup exists_p vpath rec name pl true expl ts s1 pat1) as [[[[s2 pat2] f2] l2]|] eqn:O; [|discriminate].
        injection E as <- <- <- <-. apply (SKIP s1 pat1 s2 pat2 f2 l2 O); [exact G|exact I|intros _ _; exact IMP].
      - destruct (try_list_true _ _ _ _ _ _ _ _ RR TL ltac:(discriminate)) as (G & I & IMP). apply (SKIP s1 pat1 s' pat' f l E); [exact G|exact I|intros _ _; exact IMP].
      - discriminate.
    Qed.
  End Pass.

  Lemma good_direct : forall U re arch name s expl t i ti r prefix st, let pl := pathlen arch name in
    stands arch name t i ti r prefix st -> eligible rules U re arch name i ti r prefix st -> full_len pl t = length (prefix ++ st) ->
    (good name pl s expl t <-> direct rules path_max parse (fun n => avail s expl n = true) (fun n => In n (s_impossible s)) U re arch name i ti r prefix st).
  Proof.
    intros U re arch name s expl t i ti r prefix st pl ST EL FL. unfold P_Implicit2.good, direct, ok. rewrite FL. pose proof (names_of_needs parse arch name t i ti r prefix st ST) as NN. fold pl in NN. split.
    - intros [H1 H2]. split; [exact EL|]. split; [exact H1|]. intros n N. apply NN in N. destruct N as [o N]. exact (H2 n o N).
    - intros (_ & H1 & H2). split; [exact H1|]. intros n o N. apply H2. apply NN. exists o. exact N.
  Qed.

  Lemma sorted_split : forall A (R : A -> A -> Prop) l1 x l2, StronglySorted R (l1 ++ x :: l2) -> (forall u, In u l1 -> R u x) /\ (forall u, In u l2 -> R x u).
  Proof.
    intros A R. induction l1 as [|a l1 IH]; intros x l2 H; cbn [app] in H; inversion H as [|y z H1 H2]; subst.
    - split; [intros u []|]. rewrite Forall_forall in H2. exact H2.
    - destruct (IH x l2 H1) as [K1 K2]. split; [|exact K2]. intros u [<-|Hu]; [|exact (K1 u Hu)]. rewrite Forall_forall in H2. apply H2. apply in_or_app. right. left. reflexivity.
  Qed.
  Lemma prior_asym : forall pl a b, prior pl a b -> ~ prior pl b a.
  Proof. unfold prior, sooner. intros pl a b H K. lia. Qed.

  Theorem search_spec : forall fuel U re arch name expl s s' res, reach U re arch name ->
    pattern_search rules path_max parse lookup exists_p vpath fuel U re arch name expl s = Some (s', res) ->
    grows s s' /\ (Inv s -> Inv s') /\ Result U re arch name expl s s' res.
  Proof.
    induction fuel as [|fuel IHf]; intros U re arch name expl s s' res RE H; [discriminate|]. cbn [pattern_search] in H.
    set (pl := pathlen arch name) in *. set (ts := candidates name pl re U rules) in *.
    set (rec := fun (i : nat) (n : str) (s : sstate) => pattern_search rules path_max parse lookup exists_p vpath fuel (i :: U) true false n [] s) in *.
    assert (REC : forall i n s s' res, reach (i :: U) true false n -> rec i n s = Some (s', res) -> grows s s' /\ (Inv s -> Inv s') /\ Result (i :: U) true false n [] s s' res).
    { intros i n s0 s1 res0 R0 H0. exact (IHf _ _ _ _ _ _ _ _ R0 H0). }
    pose proof (candidates_sorted rules U re arch name) as SRT. fold pl ts in SRT.
    assert (STD := candidates_stand rules WF U re arch name). fold pl ts in STD.
    assert (ELI : forall i ti r prefix st, eligible rules U re arch name i ti r prefix st -> exists t, In t ts /\ stands arch name t i ti r prefix st /\ full_len pl t = length (prefix ++ st)).
    { intros i ti r prefix st EL. destruct (proj1 (candidates_in rules WF U re arch name i ti r prefix st) EL) as (t & T1 & T2). exists t. split; [exact T1|]. split; [exact T2|].
      destruct (STD t T1) as (p' & s'' & (_ & _ & _ & Q) & _ & FL). destruct T2 as (_ & _ & _ & Q'). rewrite Q in Q'. injection Q' as -> ->. exact FL. }
    assert (PRI : forall t u prefix st, In t ts -> stands arch name t (t_index t) (t_matches t) (t_rule t) prefix st -> full_len pl t = length (prefix ++ st) -> In u ts -> forall prefix' st', stands arch name u (t_index u) (t_matches u) (t_rule u) prefix' st' -> full_len pl u = length (prefix' ++ st') ->
       (prior pl u t <-> sooner (length (prefix' ++ st')) (t_index u) (t_matches u) (length (prefix ++ st)) (t_index t) (t_matches t))).
    { intros t u prefix st _ _ F1 _ prefix' st' _ F2. unfold prior. rewrite F1, F2. reflexivity. }
    (* finishing *)
    assert (FIN : forall s1 pat t s2 p, finish name pl re s1 pat t = (s2, p) -> forall prefix st, stands arch name t (t_index t) (t_matches t) (t_rule t) prefix st ->
      eligible rules U re arch name (t_index t) (t_matches t) (t_rule t) prefix st -> length (prefix ++ st) <= path_max ->
      (r_deps (t_rule t) <> [] -> map fst pat = names_of name pl t /\ (forall d, In d pat -> entry_ok U (t_index t) expl s1 d) /\ (r_terminal (t_rule t) = false \/ forall d, In d pat -> snd d = None)) ->
      grows s1 s2 /\ (Inv s1 -> Inv s2) /\ s_impossible s2 = s_impossible s1 /\ p = Plan (t_index t) (t_matches t) (prefix ++ st) pat (also_make (t_rule t) (t_matches t) (prefix ++ st)) /\
      forall F, prefix_of (s_files s2) F -> sound rules path_max parse (AV F) U re arch name expl p).
    { intros s1 pat t s2 p E prefix st ST EL LE DP. unfold finish in E. injection E as <- <-. assert (SE := proj2 (proj2 (proj2 ST))). unfold stems, stem_parts in SE. fold pl in SE. injection SE as SE1 SE2.
      unfold stem_of_try. rewrite SE1, SE2.
      assert (GF : prefix_of (s_files s1) (s_files s1 ++ entered re pat ++ also_make (t_rule t) (t_matches t) (prefix ++ st))) by (eexists; reflexivity).
      split; [split; [exact GF|apply incl_refl]|]. split.
      { intros [I1 I2]. split; [exact (prefix_trans _ _ _ _ I1 GF)|exact I2]. }
      split; [reflexivity|]. split; [reflexivity|]. intros F PF. cbn [s_files] in PF. pose proof (prefix_trans _ _ _ _ GF PF) as PF1.
      destruct EL as [(tgt & CA) EL2]. pose proof (nth_error_In _ _ (proj1 CA)) as INR. assert (EL : eligible rules U re arch name (t_index t) (t_matches t) (t_rule t) prefix st) by (split; [exists tgt; exact CA|exact EL2]).
      apply (s_plan rules path_max parse (AV F) U re arch name expl _ _ (t_rule t) prefix st); [exact EL|exact LE|apply also_others; exact (WF _ INR)| | |].
      - intros ND. destruct (DP ND) as [D1 _]. rewrite D1. unfold pl. apply (names_of_needed parse arch name t (t_index t) (t_matches t) _ _ _ ST).
      - intros ND n o Hn. destruct (DP ND) as (_ & D2 & _). exact (D2 _ Hn F PF1).
      - intros ND n o q Hn. destruct (DP ND) as (_ & D2 & D3). split; [destruct D3 as [D3|D3]; [exact D3|specialize (D3 _ Hn); discriminate]|]. exact (D2 _ Hn F PF1). }
    destruct (one_pass_false path_max parse lookup exists_p vpath rec name pl expl s ts []) as (pat & f & ts1 & E1 & H1). rewrite E1 in H.
    destruct f as [t|].
    - (* first pass *)
      destruct (finish name pl re s pat t) as [s2 p] eqn:FE. injection H as <- <-.
      destruct H1 as (l1 & l2 & ET & GD & NG & HP & HL). assert (INT : In t ts) by (rewrite ET; apply in_or_app; right; left; reflexivity).
      destruct (STD t INT) as (prefix & st & ST & EL & FL). assert (LE : length (prefix ++ st) <= path_max) by (rewrite <- FL; exact (proj1 GD)).
      assert (SPL := SRT). rewrite ET in SPL. apply sorted_split in SPL. destruct SPL as [SP1 SP2].
      destruct (FIN s pat t s2 p FE prefix st ST EL LE) as (G & I & IMP & -> & SO).
      { intros ND. rewrite (HP ND). split; [rewrite map_map; cbn; apply map_id|]. split; [|right; intros d Hd; apply in_map_iff in Hd; destruct Hd as (x & <- & _); reflexivity].
        intros d Hd. apply in_map_iff in Hd. destruct Hd as ([n o] & <- & Hn). intros F PF. cbn [fst snd plain]. exists (s_files s). split; [exact PF|]. rewrite <- av_avail. exact (proj2 (proj2 GD n o Hn)). }
      split; [exact G|]. split; [exact I|]. cbn [Result]. exists (t_rule t), prefix, st. split; [reflexivity|]. split; [exact EL|]. split; [exact LE|].
      assert (EARLY : forall i' ti' r' prefix' st', eligible rules U re arch name i' ti' r' prefix' st' -> sooner (length (prefix' ++ st')) i' ti' (length (prefix ++ st)) (t_index t) (t_matches t) ->
                 exists u, In u l1 /\ stands arch name u i' ti' r' prefix' st' /\ full_len pl u = length (prefix' ++ st')).
      { intros i' ti' r' prefix' st' EL' SO'. destruct (ELI _ _ _ _ _ EL') as (u & U1 & U2 & U3). exists u. split; [|auto]. rewrite ET in U1. apply in_app_or in U1.
        assert (PR : prior pl u t). { destruct U2 as (V1 & V2 & _). unfold prior. rewrite U3, FL, V1, V2. exact SO'. }
        destruct U1 as [U1|[U1|U1]]; [exact U1|subst u; exfalso; exact (prior_asym _ _ _ PR PR)|exfalso; exact (prior_asym _ _ _ PR (SP2 u U1))]. }
      split; [|split; [|exact SO]].
      + left. split; [apply (good_direct U re arch name s expl t _ _ _ _ _ ST EL FL); exact GD|]. split.
        * intros i' ti' r' prefix' st' SO' DI. destruct (EARLY _ _ _ _ _ (proj1 DI) SO') as (u & U1 & U2 & U3). apply (NG u U1).
          apply (good_direct U re arch name s expl u _ _ _ _ _ U2 (proj1 DI) U3). exact DI.
        * intros ND d Hd. rewrite (HP ND) in Hd. apply in_map_iff in Hd. destruct Hd as (x & <- & _). reflexivity.
      + intros DE. destruct l1 as [|u l1]; [left; exact (HL DE eq_refl)|right]. assert (INU : In u ts) by (rewrite ET; left; reflexivity).
        destruct (STD u INU) as (p' & s' & ST' & EL' & FL'). exists (t_index u), (t_matches u), (t_rule u), p', s'. split; [exact EL'|]. rewrite <- FL, <- FL'. exact (SP1 u (or_introl eq_refl)).
    - destruct H1 as (NG & INC & SUB & REM).
      assert (ND : forall i' ti' r' prefix' st', ~ direct rules path_max parse (fun n => avail s expl n = true) (fun n => In n (s_impossible s)) U re arch name i' ti' r' prefix' st').
      { intros i' ti' r' prefix' st' DI. destruct (ELI _ _ _ _ _ (proj1 DI)) as (u & U1 & U2 & U3). apply (NG u U1). apply (good_direct U re arch name s expl u _ _ _ _ _ U2 (proj1 DI) U3). exact DI. }
      destruct (one_pass path_max parse lookup exists_p vpath rec name pl true expl ts1 s []) as [[[[s2 pat2] f2] l2]|] eqn:E2; [|discriminate].
      destruct (one_pass_true rec U REC arch re name expl RE ts1 s [] s2 pat2 f2 l2 INC E2) as (G & I & H2). cbn zeta in H2.
      (* every entry that was left out or failed *)
      assert (FAIL : forall s3, s_impossible s3 = s_impossible s2 -> forall u i' ti' r' prefix' st', In u ts -> stands arch name u i' ti' r' prefix' st' ->
        (In u ts1 -> exists n o, In (n, o) (names_of name pl u) /\ In n (s_impossible s2)) -> exists m, needs parse r' prefix' st' m /\ In m (s_impossible s3)).
      { intros s3 E3 u i' ti' r' prefix' st' U1 U2 K. assert (X : exists n o, In (n, o) (names_of name pl u) /\ In n (s_impossible s2)).
        { destruct (REM u U1) as [X|(n & o & X1 & X2)]; [exact (K X)|]. exists n, o. split; [exact X1|exact (proj2 G n X2)]. }
        destruct X as (n & o & X1 & X2). exists n. split; [|rewrite E3; exact X2]. apply (names_of_needs parse arch name u _ _ _ _ _ U2). exists o. exact X1. }
      destruct f2 as [t|].
      + destruct (finish name pl re s2 pat2 t) as [s3 p] eqn:FE. injection H as <- <-.
        destruct H2 as (l1 & l3 & ET & TE & LT & FA & HP & HL). assert (INT1 : In t ts1) by (rewrite ET; apply in_or_app; right; left; reflexivity).
        assert (INT := INC t INT1). destruct (STD t INT) as (prefix & st & ST & EL & FL). assert (LE : length (prefix ++ st) <= path_max) by (rewrite <- FL; exact LT).
        assert (SPL := SUB _ SRT). rewrite ET in SPL. apply sorted_split in SPL. destruct SPL as [SP1 SP2].
        destruct (FIN s2 pat2 t s3 p FE prefix st ST EL LE) as (G3 & I3 & IMP & -> & SO).
        { intros NE. destruct (HP NE) as [HP1 HP2]. auto. }
        split; [exact (grows_trans _ _ _ G G3)|]. split; [auto|]. cbn [Result]. exists (t_rule t), prefix, st. split; [reflexivity|]. split; [exact EL|]. split; [exact LE|].
        split; [|split; [|exact SO]].
        * right. split; [exact TE|]. split; [exact ND|]. intros i' ti' r' prefix' st' EL' LE' TE' SO'. destruct (ELI _ _ _ _ _ EL') as (u & U1 & U2 & U3).
          apply (FAIL s3 IMP u i' ti' r' prefix' st' U1 U2). intros U4. rewrite ET in U4. apply in_app_or in U4.
          assert (PR : prior pl u t). { destruct U2 as (V1 & V2 & _). unfold prior. rewrite U3, FL, V1, V2. exact SO'. }
          destruct U4 as [U4|[U4|U4]]; [|subst u; exfalso; exact (prior_asym _ _ _ PR PR)|exfalso; exact (prior_asym _ _ _ PR (SP2 u U4))].
          apply (FA u U4); [destruct U2 as (_ & _ & -> & _); exact TE'|exact (eq_ind_r (fun x => x <= path_max) LE' U3)].
        * intros DE. destruct l1 as [|u l1]; [left; exact (HL DE eq_refl)|right]. assert (INU : In u ts) by (apply INC; rewrite ET; left; reflexivity).
          destruct (STD u INU) as (p' & s' & ST' & EL' & FL'). exists (t_index u), (t_matches u), (t_rule u), p', s'. split; [exact EL'|]. rewrite <- FL, <- FL'. exact (SP1 u (or_introl eq_refl)).
      + injection H as <- <-. split; [exact G|]. split; [exact I|]. cbn [Result]. intros i ti r prefix st EL LE. destruct (ELI _ _ _ _ _ EL) as (u & U1 & U2 & U3). split.
        * assert (NGU := NG u U1).
          assert (D : forall l : list (str * bool), (forall n o, In (n, o) l -> ok lookup exists_p vpath s expl n) \/ exists n o, In (n, o) l /\ (In n (s_impossible s) \/ avail s expl n = false)).
          { induction l as [|[n o] l IHl]; [left; intros n o []|]. destruct IHl as [IHl|(n' & o' & A & B)]; [|right; exists n', o'; split; [right; exact A|exact B]].
            destruct (mem n (s_impossible s)) eqn:M; [right; exists n, o; split; [left; reflexivity|left; apply mem_iff; exact M]|].
            destruct (avail s expl n) eqn:A; [|right; exists n, o; split; [left; reflexivity|right; exact A]].
            left. intros n' o' [K|K]; [injection K as <- <-; split; [rewrite <- mem_iff, M; discriminate|exact A]|exact (IHl n' o' K)]. }
          destruct (D (names_of name pl u)) as [D1|(n & o & D1 & D2)].
          -- exfalso. apply NGU. split; [rewrite U3; exact LE|exact D1].
          -- exists n. split; [|exact D2]. apply (names_of_needs parse arch name u _ _ _ _ _ U2). exists o. exact D1.
        * intros TE. apply (FAIL s2 eq_refl u i ti r prefix st U1 U2). intros U4. apply (H2 u U4); [destruct U2 as (_ & _ & -> & _); exact TE|exact (eq_ind_r (fun x => x <= path_max) LE U3)].
  Qed.
End Search.
