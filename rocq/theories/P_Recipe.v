(** Proofs about the text of recipes. *)
From Verif Require Import Base M_Cmd M_Recipe S_Recipe.
From Coq Require Import Lia.

Definition blanks (w : str) := forallb isblank w = true.
(** [In.place] of the specification against the text before IN. *)
Lemma drop_blanks_head o k : match o with [] => True | c :: _ => isblank c = false end -> drop_blanks (firstn k o) = firstn k o.
Proof. destruct o as [|c o]; destruct k; cbn; try reflexivity. intros ->. reflexivity. Qed.
Lemma drop_blanks_app w o : blanks w -> drop_blanks (rev w ++ o) = drop_blanks o.
Proof.
  unfold blanks. revert o. induction w as [|c w IH]; intros o B; [reflexivity|]. cbn [forallb] in B. apply andb_true_iff in B. destruct B as [B1 B2].
  cbn [rev]. rewrite <- app_assoc. rewrite IH by exact B2. cbn [app drop_blanks]. rewrite B1. reflexivity.
Qed.
Lemma trim_out_spec outref w out1 : blanks w -> outref <= length out1 ->
  (length out1 = outref \/ match out1 with [] => True | c :: _ => isblank c = false end) ->
  trim_out outref (rev w ++ out1) = out1.
Proof.
  intros B L H. unfold trim_out. rewrite app_length, rev_length.
  set (k := length w + length out1 - outref).
  assert (K : k = length (rev w) + (length out1 - outref)) by (unfold k; rewrite rev_length; lia).
  rewrite K, firstn_app_2, drop_blanks_app by exact B.
  rewrite skipn_app. replace (length (rev w) + (length out1 - outref) - length (rev w)) with (length out1 - outref) by lia.
  rewrite (skipn_all2 (rev w)) by lia. cbn [app].
  destruct H as [H|H].
  - replace (length out1 - outref) with 0 by lia. reflexivity.
  - rewrite drop_blanks_head by exact H. apply firstn_skipn.
Qed.
Lemma next_token_spec t : forall inn, exists s t2, next_token inn t = (rev s ++ inn, t2) /\ t = s ++ t2 /\ forallb isspace s = true /\
  match t2 with [] => True | c :: _ => isspace c = false end.
Proof.
  induction t as [|c t IH]; intros inn; cbn [next_token].
  - exists [], []. repeat split.
  - destruct (isspace c) eqn:E.
    + destruct (IH (c :: inn)) as (s & t2 & A & -> & B & C). exists (c :: s), t2. rewrite A. cbn [rev forallb app]. rewrite E, <- app_assoc. repeat split; assumption.
    + exists [], (c :: t). repeat split. exact E.
Qed.
Lemma tidy_skip s : forall opn cls d w t, forallb isspace s = true ->
  tidy (In opn cls d false w true) (s ++ t) = tidy (In opn cls d false w true) t.
Proof.
  induction s as [|c s IH]; intros opn cls d w t H; [reflexivity|]. cbn [forallb] in H. apply andb_true_iff in H. destruct H as [H1 H2].
  cbn [app tidy]. rewrite H1. cbn [andb]. apply IH. exact H2.
Qed.

(** What was written is shorter than what was read, or the same. *)
Definition behind (inn out : str) := length out < length inn \/ out = inn.
Lemma not_quoted inn out n q : behind inn out -> ~ doubled (rev inn ++ c_bslash :: c_nl :: q) ->
  odd_slashes (firstn n (memory inn out)) = false.
Proof.
  intros B D.
  assert (H : match inn with c :: _ => c <> c_bslash | [] => True end).
  { destruct inn as [|c inn]; [exact I|]. intros ->. apply D. exists (rev inn), q. cbn [rev]. rewrite <- app_assoc. reflexivity. }
  unfold memory. destruct n as [|n]; [reflexivity|].
  destruct B as [B| ->].
  - destruct inn as [|c inn]; [cbn in B; lia|]. destruct (length (c :: inn) - length out) eqn:E; [lia|].
    cbn [firstn app odd_slashes]. destruct (c =?c c_bslash) eqn:F; [apply eqc_true in F; contradiction|reflexivity].
  - rewrite Nat.sub_diag. cbn [firstn app]. destruct inn as [|c inn]; [reflexivity|]. cbn [firstn odd_slashes].
    destruct (c =?c c_bslash) eqn:F; [apply eqc_true in F; contradiction|reflexivity].
Qed.

Lemma in_ref_tidy : forall fuel opn cls ref outref count inn out1 t odd white joined,
  cls <> c_dollar -> isspace cls = false -> cls <> c_bslash -> opn <> cls -> opn <> c_bslash -> isspace opn = false ->
  length t < fuel -> ~ doubled (rev inn ++ t) -> blanks white -> outref <= length out1 ->
  (length out1 = outref \/ match out1 with [] => True | c :: _ => isblank c = false end) ->
  behind inn (rev white ++ out1) ->
  (odd = true -> exists i, inn = c_bslash :: i) -> (joined = true -> match t with [] => True | c :: _ => isspace c = false end) ->
  exists inn' out' t', in_ref fuel opn cls ref outref count inn (rev white ++ out1) t = Some (inn', out', t') /\
    rev inn' ++ t' = rev inn ++ t /\ behind inn' out' /\ length t' <= length t /\
    rev out' ++ tidy Out t' = rev out1 ++ tidy (In opn cls count odd white joined) t.
Proof.
  induction fuel as [|fuel IH]; intros opn cls ref outref count inn out1 t odd white joined C1 C2 C3 O1 O2 O3 F D W L H B OD J; [lia|].
  cbn [in_ref]. destruct t as [|c q].
  { exists inn, (rev white ++ out1), []. repeat split; [exact B|lia|]. cbn [tidy]. rewrite rev_app_distr, rev_involutive, app_nil_r. reflexivity. }
  cbn [tidy].
  assert (JS : joined && isspace c = false) by (destruct joined; [rewrite (J eq_refl)|]; reflexivity).
  rewrite JS.
  destruct (isblank c) eqn:BL.
  { (* a blank *)
    assert (joined = false) by (apply isblank_isspace in BL; destruct joined; [rewrite (J eq_refl) in BL; discriminate|reflexivity]). subst joined.
    assert (SP := isblank_isspace _ BL).
    assert (c =?c cls = false) by (destruct (c =?c cls) eqn:E; [apply eqc_true in E; subst; congruence|reflexivity]).
    assert (c =?c opn = false) by (destruct (c =?c opn) eqn:E; [apply eqc_true in E; subst; congruence|reflexivity]).
    assert (c =?c c_bslash = false) by (destruct (c =?c c_bslash) eqn:E; [apply eqc_true in E; subst; discriminate|reflexivity]).
    rewrite H0, H1, H2. cbn [andb].
    destruct (IH opn cls ref outref count (c :: inn) out1 q false (white ++ [c]) false C1 C2 C3 O1 O2 O3) as (i' & o' & t' & A1 & A2 & A3 & A4 & A5).
    - cbn in F. lia.
    - cbn [rev]. rewrite <- app_assoc. exact D.
    - unfold blanks in *. rewrite forallb_app, W. cbn. rewrite BL. reflexivity.
    - exact L.
    - exact H.
    - rewrite rev_app_distr. cbn [rev app]. destruct B as [B|B]; [left; cbn; lia|right; rewrite B; reflexivity].
    - discriminate.
    - discriminate.
    - rewrite rev_app_distr in A1. cbn [rev app] in A1. exists i', o', t'. split; [exact A1|].
      split; [rewrite A2; cbn [rev]; rewrite <- app_assoc; reflexivity|]. split; [exact A3|]. split; [cbn; lia|exact A5]. }
  destruct ((c =?c cls) && (count =? 0)) eqn:CL.
  { exists inn, (rev white ++ out1), (c :: q). split; [reflexivity|]. split; [reflexivity|]. split; [exact B|]. split; [lia|].
    apply andb_true_iff in CL. destruct CL as [CL _]. apply eqc_true in CL. subst c. cbn [tidy].
    destruct (cls =?c c_dollar) eqn:E; [apply eqc_true in E; contradiction|].
    rewrite rev_app_distr, rev_involutive, <- app_assoc. reflexivity. }
  set (cnt := if c =?c cls then count - 1 else count).
  assert (CN : (if c =?c opn then S cnt else cnt) = (if c =?c cls then count - 1 else if c =?c opn then S count else count)).
  { unfold cnt. destruct (c =?c opn) eqn:E1; destruct (c =?c cls) eqn:E2; try reflexivity.
    apply eqc_true in E1. apply eqc_true in E2. subst. congruence. }
  (* an ordinary character *)
  assert (PL : exists inn' out' t', in_ref fuel opn cls ref outref (if c =?c opn then S cnt else cnt) (c :: inn) (c :: rev white ++ out1) q = Some (inn', out', t') /\
    rev inn' ++ t' = rev inn ++ c :: q /\ behind inn' out' /\ length t' <= length (c :: q) /\
    rev out' ++ tidy Out t' = rev out1 ++ white ++ c :: tidy (In opn cls (if c =?c cls then count - 1 else if c =?c opn then S count else count) ((c =?c c_bslash) && negb odd) [] false) q).
  { rewrite CN. destruct (IH opn cls ref outref (if c =?c cls then count - 1 else if c =?c opn then S count else count) (c :: inn) (c :: rev white ++ out1) q ((c =?c c_bslash) && negb odd) [] false C1 C2 C3 O1 O2 O3) as (i' & o' & t' & A1 & A2 & A3 & A4 & A5).
    - cbn in F. lia.
    - cbn [rev]. rewrite <- app_assoc. exact D.
    - reflexivity.
    - cbn. rewrite app_length. lia.
    - right. exact BL.
    - cbn [rev app]. destruct B as [B|B]; [left; cbn; lia|right; rewrite B; reflexivity].
    - intros E. apply andb_true_iff in E. destruct E as [E _]. apply eqc_true in E. subst. exists inn. reflexivity.
    - discriminate.
    - cbn [rev app] in A1. exists i', o', t'. split; [exact A1|].
      split; [rewrite A2; cbn [rev]; rewrite <- app_assoc; reflexivity|]. split; [exact A3|]. split; [cbn; lia|].
      rewrite A5. cbn [rev]. rewrite rev_app_distr, rev_involutive, <- !app_assoc. reflexivity. }
  destruct (c =?c c_bslash) eqn:BS; [|exact PL].
  apply eqc_true in BS. subst c. destruct q as [|d q].
  { destruct odd; exact PL. }
  destruct (d =?c c_nl) eqn:NL; [|destruct odd; exact PL].
  apply eqc_true in NL. subst d.
  assert (odd = false).
  { destruct odd; [|reflexivity]. destruct (OD eq_refl) as [i ->]. exfalso. apply D. exists (rev i), q. cbn [rev]. rewrite <- app_assoc. reflexivity. }
  subst odd. cbn [andb negb].
  rewrite (not_quoted _ _ _ q B D).
  destruct (next_token_spec q (c_nl :: c_bslash :: inn)) as (s & t2 & N1 & -> & N2 & N3). rewrite N1.
  rewrite trim_out_spec by assumption.
  assert (cnt = count).
  { unfold cnt. destruct (c_bslash =?c cls) eqn:E; [apply eqc_true in E; congruence|reflexivity]. }
  rewrite H0. clear PL CN CL cnt H0.
  destruct (IH opn cls ref outref count (rev s ++ c_nl :: c_bslash :: inn) out1 t2 false [c_sp] true C1 C2 C3 O1 O2 O3) as (i' & o' & t' & A1 & A2 & A3 & A4 & A5).
  - cbn in F. rewrite app_length in F. lia.
  - rewrite rev_app_distr, rev_involutive. cbn [rev]. rewrite <- !app_assoc. exact D.
  - reflexivity.
  - exact L.
  - exact H.
  - cbn [rev app]. left. rewrite app_length. cbn. destruct B as [B|B].
    + rewrite app_length in B. lia.
    + apply (f_equal (@length ascii)) in B. rewrite app_length in B. lia.
  - discriminate.
  - intros _. exact N3.
  - exists i', o', t'. split; [exact A1|]. split; [rewrite A2, rev_app_distr, rev_involutive; cbn [rev]; rewrite <- !app_assoc; reflexivity|].
    split; [exact A3|]. split; [cbn; rewrite app_length; lia|]. rewrite A5. f_equal. symmetry. apply tidy_skip. exact N2.
Qed.

Lemma strchr_dollar_cases t : match strchr_dollar t with
  | None => ~ List.In c_dollar t | Some (a, b) => t = a ++ c_dollar :: b /\ ~ List.In c_dollar a end.
Proof.
  induction t as [|c t IH]; [intros []|]. cbn [strchr_dollar]. destruct (c =?c c_dollar) eqn:E.
  - apply eqc_true in E. subst. split; [reflexivity|intros []].
  - assert (N : c <> c_dollar) by (intros ->; rewrite eqc_refl in E; discriminate).
    destruct (strchr_dollar t) as [[a b]|].
    + destruct IH as [-> K]. split; [reflexivity|]. intros [G|G]; [exact (N G)|exact (K G)].
    + intros [G|G]; [exact (N G)|exact (IH G)].
Qed.
Lemma tidy_plain a b : ~ List.In c_dollar a -> tidy Out (a ++ b) = a ++ tidy Out b.
Proof.
  induction a as [|c a IH]; intros N; [reflexivity|]. cbn [app tidy].
  destruct (c =?c c_dollar) eqn:E; [apply eqc_true in E; subst; exfalso; apply N; left; reflexivity|].
  f_equal. apply IH. intros G. apply N. right. exact G.
Qed.

Lemma in_line_tidy : forall fuel inn out t, length t < fuel -> ~ doubled (rev inn ++ t) -> behind inn out ->
  in_line fuel inn out t = Some (rev out ++ tidy Out t).
Proof.
  induction fuel as [|fuel IH]; intros inn out t F D B; [lia|]. cbn [in_line].
  pose proof (strchr_dollar_cases t) as K. destruct (strchr_dollar t) as [[a b]|].
  - destruct K as [-> K]. rewrite tidy_plain by exact K. rewrite app_length in F. cbn in F.
    assert (BB : forall x, behind (x :: rev a ++ inn) (x :: rev a ++ out)).
    { intros x. destruct B as [B| ->]; [left; cbn; rewrite !app_length; lia|right; reflexivity]. }
    assert (DD : rev (c_dollar :: rev a ++ inn) ++ b = rev inn ++ a ++ c_dollar :: b).
    { cbn [rev]. rewrite rev_app_distr, rev_involutive, <- !app_assoc. reflexivity. }
    assert (PL : in_line fuel (c_dollar :: rev a ++ inn) (c_dollar :: rev a ++ out) b = Some (rev out ++ a ++ c_dollar :: tidy Out b)).
    { rewrite IH; [|lia|rewrite DD; exact D|apply BB]. cbn [rev]. rewrite rev_app_distr, rev_involutive, <- !app_assoc. reflexivity. }
    cbn [tidy]. rewrite eqc_refl.
    destruct b as [|o b']; [exact PL|].
    assert (RF : forall o cl, cl <> c_dollar -> isspace cl = false -> cl <> c_bslash -> o <> cl -> o <> c_bslash -> isspace o = false ->
      ~ doubled (rev inn ++ a ++ c_dollar :: o :: b') ->
      match in_ref (S (length b')) o cl (length (c_dollar :: rev a ++ inn)) (S (length (c_dollar :: rev a ++ out))) 0 (o :: c_dollar :: rev a ++ inn) (o :: c_dollar :: rev a ++ out) b' with
      | Some (inn', out', t') => in_line fuel inn' out' t' | None => None end = Some (rev out ++ a ++ c_dollar :: o :: tidy (In o cl 0 false [] false) b')).
    { cbn in F. clear D DD PL. clear o. intros o cl C1 C2 C3 O1 O2 O3 D.
      assert (DD : rev (o :: c_dollar :: rev a ++ inn) ++ b' = rev inn ++ a ++ c_dollar :: o :: b').
      { cbn [rev]. rewrite rev_app_distr, rev_involutive, <- !app_assoc. reflexivity. }
      destruct (in_ref_tidy (S (length b')) o cl (length (c_dollar :: rev a ++ inn)) (S (length (c_dollar :: rev a ++ out))) 0 (o :: c_dollar :: rev a ++ inn) (o :: c_dollar :: rev a ++ out) b' false [] false C1 C2 C3 O1 O2 O3) as (i' & o' & t' & A1 & A2 & A3 & A4 & A5).
      - lia.
      - rewrite DD. exact D.
      - reflexivity.
      - cbn. lia.
      - left. reflexivity.
      - cbn [rev app]. destruct (BB c_dollar) as [BB'|BB']; [left; cbn in *; lia|right; rewrite BB'; reflexivity].
      - discriminate.
      - discriminate.
      - cbn [rev app] in A1. rewrite A1. rewrite IH; [|lia|rewrite A2, DD; exact D|exact A3].
        rewrite A5. cbn [rev]. rewrite rev_app_distr, rev_involutive, <- !app_assoc. reflexivity. }
    destruct (o =?c c_lparen) eqn:E1.
    + apply eqc_true in E1. subst o. cbn [orb]. apply RF; [discriminate|reflexivity|discriminate|discriminate|discriminate|reflexivity|exact D].
    + destruct (o =?c c_lbrace) eqn:E2; cbn [orb]; [|exact PL].
      apply eqc_true in E2. subst o. apply RF; [discriminate|reflexivity|discriminate|discriminate|discriminate|reflexivity|exact D].
  - rewrite <- (app_nil_r t) at 2. rewrite tidy_plain by exact K. cbn [tidy]. rewrite app_nil_r. reflexivity.
Qed.
Lemma collapse_tidy t : ~ doubled t -> collapse t = Some (tidy Out t).
Proof. intros D. unfold collapse. rewrite in_line_tidy; [reflexivity|lia|exact D|right; reflexivity]. Qed.
