From Verif Require Import Base M_Text S_Text P_Text2 M_Chop S_Chop.
Open Scope string_scope.
Open Scope list_scope.
Open Scope nat_scope.

(** ** Backslashes *)
Lemma bs_count : forall s, (bs_odd (rev s) <-> Nat.odd (lead_bs s) = true) /\ (bs_even (rev s) <-> Nat.odd (lead_bs s) = false).
Proof.
  induction s as [|c s [I1 I2]]; cbn [rev lead_bs].
  - split; split; intros H; try discriminate; try constructor. inversion H as [s E H1]. destruct s; discriminate.
  - destruct (c =?c c_bslash) eqn:E.
    + apply Ascii.eqb_eq in E. subst c. rewrite Nat.odd_succ, <- Nat.negb_odd. split; split; intros H.
      * inversion H as [s0 H0 E]. apply app_inj_tail in E. destruct E as [E _]. subst s0. apply I2 in H0. rewrite H0. reflexivity.
      * constructor. apply I2. destruct (Nat.odd (lead_bs s)); [discriminate|reflexivity].
      * inversion H as [E|s0 c0 N E|s0 H0 E]; [destruct (rev s); discriminate|apply app_inj_tail in E; destruct E as [_ E]; congruence|].
        apply app_inj_tail in E. destruct E as [E _]. subst s0. apply I1 in H0. rewrite H0. reflexivity.
      * apply be_bs. apply I1. destruct (Nat.odd (lead_bs s)); [reflexivity|discriminate].
    + apply Ascii.eqb_neq in E. split; split; intros H; try discriminate.
      * inversion H as [s0 H0 E0]. apply app_inj_tail in E0. destruct E0 as [_ E0]. congruence.
      * reflexivity.
      * constructor. exact E.
Qed.
Lemma bs_both : forall s, bs_odd s -> bs_even s -> False.
Proof.
  intros s H1 H2. rewrite <- (rev_involutive s) in H1, H2. apply bs_count in H1. apply bs_count in H2. congruence.
Qed.

(** ** Lines *)
Lemma one_line_snoc : forall l c, one_line l -> (c = c_nl -> bs_odd l) -> one_line (l ++ [c]).
Proof.
  intros l c H Hc a b E. destruct b as [|x b _] using rev_ind.
  - apply app_inj_tail in E. destruct E as [-> ->]. apply Hc. reflexivity.
  - rewrite app_comm_cons, app_assoc in E. apply app_inj_tail in E. destruct E as [E _]. apply (H a b). exact E.
Qed.
Lemma one_line_prefix : forall l t, one_line (l ++ t) -> one_line l.
Proof. intros l t H a b E. apply (H a (b ++ t)). rewrite E, <- app_assoc. reflexivity. Qed.
Lemma take_line_spec : forall s acc l r, one_line (rev acc) -> take_line acc s = (l, r) ->
  (l = rev acc ++ s /\ r = [] /\ one_line l) \/
  (exists s1, s = s1 ++ c_nl :: r /\ l = rev acc ++ s1 /\ one_line l /\ bs_even l).
Proof.
  induction s as [|c s IH]; intros acc l r H E; cbn [take_line] in E.
  - inversion E; subst. left. rewrite app_nil_r. auto.
  - assert (GO : one_line (rev (c :: acc)) -> take_line (c :: acc) s = (l, r) ->
       (l = rev acc ++ c :: s /\ r = [] /\ one_line l) \/ (exists s1, c :: s = s1 ++ c_nl :: r /\ l = rev acc ++ s1 /\ one_line l /\ bs_even l)).
    { intros H' E'. destruct (IH (c :: acc) l r H' E') as [[A [B C]]|[s1 [A [B [C D]]]]].
      - left. cbn [rev] in A. rewrite <- app_assoc in A. auto.
      - right. exists (c :: s1). cbn [rev] in B. rewrite <- app_assoc in B. split; [rewrite A; reflexivity|]. auto. }
    destruct (c =?c c_nl) eqn:Ec.
    + apply Ascii.eqb_eq in Ec. subst c. destruct (Nat.odd (lead_bs acc)) eqn:O.
      * apply GO; [|exact E]. cbn [rev]. apply one_line_snoc; [exact H|]. intros _. apply bs_count. exact O.
      * inversion E; subst. right. exists []. rewrite app_nil_r. split; [reflexivity|]. split; [reflexivity|]. split; [exact H|]. apply bs_count. exact O.
    + apply Ascii.eqb_neq in Ec. apply GO; [|exact E]. cbn [rev]. apply one_line_snoc; [exact H|]. intros K. contradiction.
Qed.
Lemma take_line_one : forall t acc s, one_line (rev acc ++ t) -> take_line acc (t ++ s) = take_line (rev t ++ acc) s.
Proof.
  induction t as [|c t IH]; intros acc s H; [reflexivity|]. cbn [app take_line].
  assert (R : take_line (c :: acc) (t ++ s) = take_line (rev (c :: t) ++ acc) s).
  { rewrite IH; [|cbn [rev]; rewrite <- app_assoc; exact H]. cbn [rev]. rewrite <- app_assoc. reflexivity. }
  destruct (c =?c c_nl) eqn:Ec; [|exact R]. apply Ascii.eqb_eq in Ec. subst c.
  assert (O : Nat.odd (lead_bs acc) = true) by (apply bs_count; apply (H (rev acc) t); reflexivity). rewrite O. exact R.
Qed.
Lemma take_line_ended : forall l s, one_line l -> bs_even l -> take_line [] (l ++ c_nl :: s) = (l, s).
Proof.
  intros l s H1 H2. rewrite take_line_one by exact H1. rewrite app_nil_r. cbn [take_line]. rewrite Ascii.eqb_refl.
  assert (O : Nat.odd (lead_bs (rev l)) = false) by (apply bs_count; rewrite rev_involutive; exact H2). rewrite O, rev_involutive. reflexivity.
Qed.
Lemma take_line_last : forall l, one_line l -> take_line [] l = (l, []).
Proof.
  intros l H. pose proof (take_line_one l [] [] H) as E. rewrite !app_nil_r in E. rewrite E. cbn [take_line]. rewrite rev_involutive. reflexivity.
Qed.
Lemma one_line_nil : one_line []. Proof. intros a b E. destruct a; discriminate. Qed.

Lemma recipe_exists : forall n s, length s <= n -> exists ls, recipe s ls.
Proof.
  induction n as [|n IH]; intros s Hn.
  - destruct s; [|cbn in Hn; lia]. exists []. constructor.
  - destruct s as [|c s0]; [exists []; constructor|]. set (s := c :: s0) in *. destruct (take_line [] s) as [l r] eqn:T.
    destruct (take_line_spec s [] l r one_line_nil T) as [[A [B C]]|[s1 [A [B [C D]]]]]; cbn [rev app] in *.
    + exists [l]. rewrite <- A. apply r_last; [rewrite A; discriminate|exact C].
    + destruct (IH r) as [ls L]; [rewrite A, app_length in Hn; cbn [length] in Hn; lia|]. exists (l :: ls). rewrite A, <- B. apply r_line; assumption.
Qed.

Section W.
  Variable width : nat.
  Hypothesis WP : 0 < width.

  Fixpoint wrapped (cur ls : list str) : list str :=
    match ls with
    | [] => cur
    | x :: ls' => wrapped (if S (length cur) =? width then [] else cur ++ [x]) ls'
    end.
  Lemma loop_recipe : forall s ls, recipe s ls -> forall fuel idx arr, length s <= fuel -> idx <= length arr -> idx < width ->
    chop_loop width fuel s idx arr = Some (wrapped (firstn idx arr) ls).
  Proof.
    intros s ls H.
    assert (ST : forall idx arr x, idx <= length arr -> idx < width ->
      firstn (if S idx =? width then 0 else S idx) (store arr idx x) = (if S (length (firstn idx arr)) =? width then [] else firstn idx arr ++ [x]) /\
      (if S idx =? width then 0 else S idx) <= length (store arr idx x) /\ (if S idx =? width then 0 else S idx) < width).
    { intros idx arr x H1 H2. rewrite firstn_length_le by exact H1. destruct (S idx =? width) eqn:E.
      - split; [reflexivity|]. split; lia.
      - apply Nat.eqb_neq in E. unfold store. split; [|split; [rewrite app_length; cbn [length]; rewrite firstn_length_le by exact H1; lia|lia]].
        rewrite firstn_app, firstn_length_le by exact H1. replace (S idx - idx) with 1 by lia. change (firstn 1 (x :: skipn (S idx) arr)) with [x].
        rewrite firstn_firstn, Nat.min_r by lia. reflexivity. }
    induction H as [|l Hl H|l s ls H1 H2 H IH]; intros fuel idx arr Hf Hi Hw.
    - destruct fuel; reflexivity.
    - destruct l as [|c l0]; [contradiction|]. destruct fuel as [|f]; [cbn in Hf; lia|]. cbn [chop_loop].
      rewrite (take_line_last (c :: l0) H). destruct (ST idx arr (c :: l0) Hi Hw) as [E _].
      cbn [wrapped]. rewrite <- E. destruct f; reflexivity.
    - assert (N : exists c t, l ++ c_nl :: s = c :: t) by (destruct l; eexists _, _; reflexivity). destruct N as [c [t N]].
      destruct fuel as [|f]; [rewrite N in Hf; cbn in Hf; lia|]. rewrite N. cbn [chop_loop]. rewrite <- N.
      rewrite (take_line_ended l s H1 H2). destruct (ST idx arr l Hi Hw) as [E [E1 E2]].
      rewrite IH; [|rewrite app_length in Hf; cbn [length] in Hf; lia|exact E1|exact E2]. cbn [wrapped]. rewrite <- E. reflexivity.
  Qed.
  Lemma wrapped_few : forall ls cur, length cur + length ls < width -> wrapped cur ls = cur ++ ls.
  Proof.
    induction ls as [|x ls IH]; intros cur H; cbn [wrapped length] in *; [rewrite app_nil_r; reflexivity|].
    rewrite (proj2 (Nat.eqb_neq (S (length cur)) width)) by lia. rewrite IH; [rewrite <- app_assoc; reflexivity|rewrite app_length; cbn [length]; lia].
  Qed.
  Lemma wrapped_cycle : forall ls cur rest, length cur + length ls = width -> ls <> [] -> wrapped cur (ls ++ rest) = wrapped [] rest.
  Proof.
    induction ls as [|x ls IH]; intros cur rest H N; [contradiction|]. cbn [app wrapped length] in *.
    destruct ls as [|y ls].
    - cbn [length] in H. rewrite (proj2 (Nat.eqb_eq (S (length cur)) width)) by lia. reflexivity.
    - rewrite (proj2 (Nat.eqb_neq (S (length cur)) width)) by (cbn [length] in H; lia). apply IH; [|discriminate]. rewrite app_length. cbn [length] in *. lia.
  Qed.
End W.

(** ** C21 *)

(** A recipe of fewer than 65536 lines is cut into exactly its lines, and there is only one way to
    read it so. *)
Theorem C21_recipe_lines : forall width s ls, recipe s ls -> length ls < width -> chop_lines width false s = Some ls.
Proof.
  intros width s ls H W. unfold chop_lines. rewrite (loop_recipe width ltac:(lia) s ls H) by (cbn [length]; lia).
  cbn [firstn]. rewrite wrapped_few by (try exact W; lia). reflexivity.
Qed.
Print Assumptions C21_recipe_lines.
Theorem C21_every_recipe_has_lines : forall s, exists ls, recipe s ls /\ forall ls', recipe s ls' -> ls' = ls.
Proof.
  intros s. destruct (recipe_exists (length s) s (le_n _)) as [ls H]. exists ls. split; [exact H|]. intros ls' H'.
  set (w := S (length ls + length ls')).
  pose proof (C21_recipe_lines w s ls H ltac:(unfold w; lia)) as E1. pose proof (C21_recipe_lines w s ls' H' ltac:(unfold w; lia)) as E2. congruence.
Qed.
Print Assumptions C21_every_recipe_has_lines.
(** No character is lost: the lines with their newlines are the recipe. *)
Theorem C21_nothing_lost : forall width s ls, recipe s ls -> length ls < width ->
  exists ls', chop_lines width false s = Some ls' /\ (flat_map (fun l => l ++ [c_nl]) ls' = s \/ flat_map (fun l => l ++ [c_nl]) ls' = s ++ [c_nl]).
Proof.
  intros width s ls H W. exists ls. split; [apply C21_recipe_lines; assumption|]. clear W. induction H as [|l Hl H|l s ls H1 H2 H IH].
  - left. reflexivity.
  - right. cbn [flat_map]. rewrite app_nil_r. reflexivity.
  - cbn [flat_map]. destruct IH as [IH|IH]; rewrite IH; [left|right]; rewrite <- !app_assoc; reflexivity.
Qed.
Print Assumptions C21_nothing_lost.
Example C21_example : chop_lines (2 ^ 16) false (s2l "a\
b" ++ c_nl :: s2l "@c") = Some [s2l "a\
b"; s2l "@c"].
Proof. vm_compute. reflexivity. Qed.

(** A recipe of 65536 lines is cut into none, without the error message meant for it; with more,
    only the lines after the first 65536 are run. *)
Theorem C21_many_lines_refuted : forall width, 1 < width ->
  exists s ls, recipe s ls /\ length ls = width /\ chop_lines width false s = Some [] /\
    chop_lines width false (s ++ s2l "rm") = Some [s2l "rm"].
Proof.
  intros width W1. assert (W : 0 < width) by lia. set (l := s2l "x").
  assert (O : one_line l) by (intros a b E; destruct a as [|x [|y a]]; inversion E).
  assert (Ev : bs_even l) by (apply (be_char [] "x"%char); discriminate).
  assert (O' : one_line (s2l "rm")) by (intros a b E; destruct a as [|x [|y [|z a]]]; inversion E).
  assert (R : forall n t ls, recipe t ls -> recipe (flat_map (fun l => l ++ [c_nl]) (repeat l n) ++ t) (repeat l n ++ ls)).
  { induction n as [|n IH]; intros t ls H; [exact H|]. cbn [repeat flat_map app]. rewrite <- !app_assoc. cbn [app].
    apply (r_line l); [exact O|exact Ev|apply IH; exact H]. }
  pose proof (R width [] [] r_nil) as R0. pose proof (R width (s2l "rm") [s2l "rm"] (r_last (s2l "rm") ltac:(discriminate) O')) as R1. rewrite !app_nil_r in R0.
  exists (flat_map (fun l => l ++ [c_nl]) (repeat l width)), (repeat l width).
  assert (N : repeat l width <> []) by (destruct width; [lia|discriminate]).
  split; [exact R0|]. split; [apply repeat_length|]. split; unfold chop_lines.
  - rewrite (loop_recipe width W _ _ R0) by (cbn [length]; lia). cbn [firstn].
    pose proof (wrapped_cycle width W (repeat l width) [] [] ltac:(rewrite repeat_length; reflexivity) N) as E.
    rewrite app_nil_r in E. rewrite E. reflexivity.
  - rewrite (loop_recipe width W _ _ R1) by (cbn [length]; lia). cbn [firstn].
    rewrite (wrapped_cycle width W (repeat l width) [] _ ltac:(rewrite repeat_length; reflexivity) N).
    cbn [wrapped length]. rewrite (proj2 (Nat.eqb_neq 1 width)) by lia. reflexivity.
Qed.
Print Assumptions C21_many_lines_refuted.

Theorem C21_one_shell : forall width s, chop_lines width true (s ++ [c_nl]) = Some [s] /\
  ((forall t, s <> t ++ [c_nl]) -> chop_lines width true s = Some [s]).
Proof.
  intros width s. unfold chop_lines, strip_nl. rewrite rev_app_distr. cbn [rev app]. rewrite Ascii.eqb_refl, rev_involutive. split; [reflexivity|].
  intros H. destruct (rev s) as [|c r] eqn:E; [reflexivity|]. destruct (c =?c c_nl) eqn:Ec; [|reflexivity].
  apply Ascii.eqb_eq in Ec. subst c. exfalso. apply (H (rev r)). rewrite <- (rev_involutive s), E. reflexivity.
Qed.
Print Assumptions C21_one_shell.

(** ** The flags of a line *)
Ltac fin R1 R2 R3 :=
  split; [rewrite R1|split; [rewrite R2|rewrite R3]]; cbn [In];
  (split; [intros [K|K]; auto|intros [K|[K|K]]; auto; try discriminate K; try congruence]).
Lemma scan_prefix_spec : forall p f f' r, scan_prefix p f = (f', r) ->
  exists pre, line_prefix p pre r /\
    (f_recurse f' = true <-> f_recurse f = true \/ In c_plus pre) /\ (f_silent f' = true <-> f_silent f = true \/ In c_at pre) /\
    (f_noerror f' = true <-> f_noerror f = true \/ In c_minus pre).
Proof.
  induction p as [|c p IH]; intros f f' r H; cbn [scan_prefix] in H.
  - inversion H; subst. exists []. split; [split; [reflexivity|]; split; [constructor|discriminate]|]. cbn [In]. tauto.
  - assert (GO : forall g, prefix_char c -> scan_prefix p g = (f', r) ->
      exists pre, line_prefix (c :: p) (c :: pre) r /\
      (f_recurse f' = true <-> f_recurse g = true \/ In c_plus pre) /\ (f_silent f' = true <-> f_silent g = true \/ In c_at pre) /\
      (f_noerror f' = true <-> f_noerror g = true \/ In c_minus pre)).
    { intros g Hc E. destruct (IH g f' r E) as [pre [[L1 [L2 L3]] R]]. exists pre. split; [|exact R]. split; [rewrite L1; reflexivity|]. split; [constructor; assumption|exact L3]. }
    destruct (c =?c c_plus) eqn:E1; [apply Ascii.eqb_eq in E1; subst c|apply Ascii.eqb_neq in E1].
    { destruct (GO _ ltac:(right; right; right; reflexivity) H) as [pre [L [R1 [R2 R3]]]]. exists (c_plus :: pre). split; [exact L|].
      cbn [In f_recurse f_silent f_noerror] in *. fin R1 R2 R3. }
    destruct (c =?c c_at) eqn:E2; [apply Ascii.eqb_eq in E2; subst c|apply Ascii.eqb_neq in E2].
    { destruct (GO _ ltac:(right; right; left; reflexivity) H) as [pre [L [R1 [R2 R3]]]]. exists (c_at :: pre). split; [exact L|].
      cbn [In f_recurse f_silent f_noerror] in *. fin R1 R2 R3. }
    destruct (c =?c c_minus) eqn:E3; [apply Ascii.eqb_eq in E3; subst c|apply Ascii.eqb_neq in E3].
    { destruct (GO _ ltac:(right; left; reflexivity) H) as [pre [L [R1 [R2 R3]]]]. exists (c_minus :: pre). split; [exact L|].
      cbn [In f_recurse f_silent f_noerror] in *. fin R1 R2 R3. }
    destruct (isblank c) eqn:E4.
    { destruct (GO _ ltac:(left; exact E4) H) as [pre [L [R1 [R2 R3]]]]. exists (c :: pre). split; [exact L|].
      cbn [In] in *. fin R1 R2 R3. }
    inversion H; subst. exists []. split; [split; [reflexivity|]; split; [constructor|]|cbn [In]; tauto].
    intros c0 t E [K|[K|[K|K]]]; inversion E; subst; congruence.
Qed.
Lemma prefix_unique : forall line p r p' r', line_prefix line p r -> line_prefix line p' r' -> p = p' /\ r = r'.
Proof.
  intros line p r p' r' [E1 [F1 N1]]. revert line p' r' E1 F1 N1. induction p as [|c p IH]; intros line p' r' E1 F1 N1 [E2 [F2 N2]].
  - cbn [app] in E1. destruct p' as [|c' p']; [subst; auto|]. exfalso. inversion F2; subst. apply (N1 c' (p' ++ r')); [reflexivity|assumption].
  - destruct p' as [|c' p'].
    + exfalso. inversion F1; subst. cbn [app] in E2. apply (N2 c (p ++ r)); [symmetry; exact E2|assumption].
    + rewrite E1 in E2. cbn [app] in E2. inversion E2; subst. inversion F1; inversion F2; subst.
      destruct (IH (p ++ r) p' r' eq_refl) as [-> ->]; [assumption|assumption|split; [assumption|]; split; assumption|]. auto.
Qed.

(** A line is silent if there is an @ in its prefix, errors are ignored if there is a -, and it is
    run even under -n if there is a + or a reference to MAKE written in one of two ways. *)
Theorem C21_flags : forall line pre rest, line_prefix line pre rest ->
  (f_silent (line_flags line) = true <-> In c_at pre) /\
  (f_noerror (line_flags line) = true <-> In c_minus pre) /\
  (f_recurse (line_flags line) = true <-> In c_plus pre \/ occurs (s2l "$(MAKE)") rest \/ occurs (s2l "${MAKE}") rest).
Proof.
  intros line pre rest L. unfold line_flags. destruct (scan_prefix line (mkflags false false false)) as [f p] eqn:E.
  destruct (scan_prefix_spec _ _ _ _ E) as [pre' [L' [R1 [R2 R3]]]]. destruct (prefix_unique _ _ _ _ _ L L') as [<- <-].
  cbn [f_recurse f_silent f_noerror] in *.
  assert (S1 : forall n, match strstr rest n with Some _ => true | None => false end = true <-> occurs n rest).
  { intros n. split; intros H.
    - destruct (strstr rest n) as [[b q]|] eqn:K; [|discriminate]. apply strstr_some in K. destruct K as [K1 [[q' K2] _]]. subst. exists b, q'. reflexivity.
    - destruct (strstr_complete _ _ H) as [b [q K]]. rewrite K. reflexivity. }
  pose proof (S1 (s2l "$(MAKE)")) as M1. pose proof (S1 (s2l "${MAKE}")) as M2.
  destruct (f_recurse f) eqn:RF.
  - cbn [negb andb]. rewrite RF. intuition congruence.
  - cbn [negb andb]. rewrite <- M1, <- M2.
    destruct (match strstr rest (s2l "$(MAKE)") with Some _ => true | None => false end) eqn:B1,
      (match strstr rest (s2l "${MAKE}") with Some _ => true | None => false end) eqn:B2; cbn [orb f_recurse f_silent f_noerror]; rewrite ?RF; intuition congruence.
Qed.
Print Assumptions C21_flags.
Example C21_flags_example : line_prefix (s2l " @- ${MAKE} x") (s2l " @- ") (s2l "${MAKE} x") /\
  line_flags (s2l " @- ${MAKE} x") = mkflags true true true.
Proof.
  split; [|reflexivity]. split; [reflexivity|]. split; [repeat constructor; vm_compute; tauto|]. intros c t E [K|[K|[K|K]]]; inversion E; subst; discriminate.
Qed.

Theorem C21_chop_commands : forall width s ls, recipe s ls -> length ls < width ->
  exists l any, chop_commands width false s = Some (l, any) /\ map fst l = ls /\ (forall x, In x l -> snd x = line_flags (fst x)) /\
    (any = true <-> exists x, In x ls /\ f_recurse (line_flags x) = true).
Proof.
  intros width s ls H W. unfold chop_commands. rewrite (C21_recipe_lines width s ls H W). eexists _, _. split; [reflexivity|].
  split; [rewrite map_map; apply map_id|]. split; [intros x Hx; apply in_map_iff in Hx; destruct Hx as [y [<- _]]; reflexivity|].
  rewrite existsb_exists. split.
  - intros [x [X1 X2]]. apply in_map_iff in X1. destruct X1 as [y [<- Y]]. exists y. auto.
  - intros [y [Y1 Y2]]. exists (y, line_flags y). split; [apply in_map_iff; exists y; auto|exact Y2].
Qed.
Print Assumptions C21_chop_commands.
