(** The tests that W_Cmd computes follow from the theorems of Properties_Cmd. *)
From Coq Require Import NArith Lia.
From Verif Require Import Base S_Cmd M_Cmd Properties_Cmd S_CmdCheck W_Random W_Cmd.
Open Scope string_scope.
Open Scope list_scope.
Open Scope nat_scope.

Lemma strs_eqb_refl l : strs_eqb l l = true.
Proof. induction l as [|x l IH]; [reflexivity|]. cbn [strs_eqb]. rewrite (proj2 (str_eqb_eq x x) eq_refl). exact IH. Qed.
Lemma str_refl (x : str) : str_eqb x x = true. Proof. apply str_eqb_eq. reflexivity. Qed.
Lemma ostr_refl o : ostr_eqb o o = true.
Proof. destruct o; [apply str_refl|reflexivity]. Qed.
Lemma holds_char_iff c s : holds_char c s = true <-> In c s.
Proof. unfold holds_char. rewrite existsb_exists. split; [intros (d & D & E); apply eqc_true in E; subst d; exact D|intros H; exists c; split; [exact H|apply eqc_refl]]. Qed.
Lemma holds_word_iff c s : holds_word c s = true <-> In c s.
Proof. unfold holds_word. rewrite existsb_exists. split; [intros (d & D & E); apply str_eqb_eq in E; subst d; exact D|intros H; exists c; split; [exact H|apply str_refl]]. Qed.
Lemma in_divisions : forall s a b, In (a, b) (divisions s) <-> s = a ++ b.
Proof.
  induction s as [|c s IH]; intros a b; cbn [divisions].
  - split; [intros [E|[]]; injection E as <- <-; reflexivity|]. intros E. symmetry in E. apply app_eq_nil in E. destruct E as (-> & ->). left. reflexivity.
  - split.
    + intros [E|H]; [injection E as <- <-; reflexivity|]. apply in_map_iff in H. destruct H as ([x y] & E & H). cbn [fst snd] in E. injection E as <- <-. apply IH in H. subst s. reflexivity.
    + intros E. destruct a as [|d a]; [left; cbn in E; subst b; reflexivity|]. right. cbn [app] in E. injection E as <- E. apply in_map_iff. exists (a, b). split; [reflexivity|]. apply IH. exact E.
Qed.
Lemma ends_in_iff P s : ends_in P s = true <-> exists s' c, s = s' ++ [c] /\ P c = true.
Proof.
  unfold ends_in. destruct s as [|x s]; [split; [discriminate|intros ([|? ?] & ? & E & _); discriminate E]|]. split.
  - intros H. exists (removelast (x :: s)), (last (x :: s) c_nul). split; [apply app_removelast_last; discriminate|exact H].
  - intros (s' & c & E & H). rewrite E, last_last. exact H.
Qed.
Lemma place_eqb_iff a b : place_eqb a b = true <-> a = b.
Proof. destruct a, b; cbn; split; congruence. Qed.
Lemma etj_found line : empty_then_joined line -> b_empty_then_joined line = true.
Proof.
  intros (pre & w & b & post & E & B & P & W). unfold b_empty_then_joined. apply existsb_exists. exists (pre ++ w, c_bslash :: c_nl :: b :: post). split; [apply in_divisions; rewrite E, <- app_assoc; reflexivity|].
  cbn [fst snd]. change (c_bslash =?c c_bslash) with true. change (c_nl =?c c_nl) with true. rewrite B. cbn [andb]. apply existsb_exists. exists (pre, w). split; [apply in_divisions; reflexivity|]. cbn [fst snd]. rewrite W, andb_true_r.
  destruct P as [-> | (pre' & b' & -> & B' & O)]; [reflexivity|]. destruct (pre' ++ [b']) eqn:EQ; [destruct pre'; discriminate EQ|]. rewrite <- EQ. apply andb_true_iff. split; [apply ends_in_iff; eauto|]. rewrite removelast_last. apply place_eqb_iff. exact O.
Qed.
Lemma assignment_not w : ~ assignment w -> b_assignment w = false.
Proof.
  intros N. destruct (b_assignment w) eqn:B; [|reflexivity]. exfalso. apply N. apply existsb_exists in B. destruct B as ([a [|c b]] & I & H); [discriminate H|]. cbn [fst snd] in H. apply andb_true_iff in H. destruct H as (H1 & H2).
  apply eqc_true in H1. subst c. apply in_divisions in I. exists a, b. split; [exact I|]. intros c C. rewrite forallb_forall in H2. specialize (H2 c C). repeat split; intros ->; discriminate H2.
Qed.
Lemma filter_nil {A} (P : A -> bool) l x : filter P l = [] -> In x l -> P x = true -> False.
Proof. intros F I H. pose proof (proj2 (filter_In P x l) (conj I H)) as K. rewrite F in K. exact K. Qed.
Lemma filter_first {A} (P : A -> bool) l x m : filter P l = x :: m -> In x l /\ P x = true.
Proof. intros F. apply filter_In. rewrite F. left. reflexivity. Qed.
Lemma filter_map {A B} (P : B -> bool) (f : A -> B) l : filter P (map f l) = map f (filter (fun x => P (f x)) l).
Proof. induction l as [|x l IH]; [reflexivity|]. cbn [map filter]. rewrite IH. destruct (P (f x)); reflexivity. Qed.
Lemma no_newline_out line : (forall a1 a2, line = a1 ++ c_nl :: a2 -> place_after a1 <> Out) -> after_newline line = None.
Proof.
  intros H. unfold after_newline. match goal with |- match ?x with _ => _ end = _ => destruct x as [|[a b] l] eqn:F end; [reflexivity|]. exfalso. apply filter_first in F. destruct F as (I1 & I2). apply in_divisions in I1. cbn [fst snd] in I2. destruct b as [|c b]; [discriminate I2|].
  apply andb_true_iff in I2. destruct I2 as (I2 & I3). apply eqc_true in I2. subst c. apply place_eqb_iff in I3. exact (H a b I1 I3).
Qed.
Lemma first_division (P : str * str -> bool) : forall s a b, s = a ++ b -> P (a, b) = true -> (forall a1 c a2, a = a1 ++ c :: a2 -> P (a1, c :: a2 ++ b) = false) -> exists l, filter P (divisions s) = (a, b) :: l.
Proof.
  intros s a. revert s P. induction a as [|c a IH]; intros s P b E H N; subst s.
  - destruct b as [|d b]; cbn [app divisions filter]; match goal with |- context [if ?x then _ else _] => replace x with true by (symmetry; exact H) end; eauto.
  - cbn [app divisions filter]. match goal with |- context [if ?x then _ else _] => replace x with false by (symmetry; exact (N [] c a eq_refl)) end.
    destruct (IH (a ++ b) (fun x => P (c :: fst x, snd x)) b eq_refl H) as (l & L).
    + intros a1 d a2 E. cbn [fst snd]. apply (N (c :: a1) d a2). rewrite E. reflexivity.
    + rewrite filter_map. pose proof (f_equal (map (fun x : str * str => (c :: fst x, snd x))) L) as L'. cbn [map fst snd] in L'. eexists. exact L'.
Qed.
Lemma newline_out line a y : line = a ++ c_nl :: y -> place_after a = Out -> (forall a1 a2, a = a1 ++ c_nl :: a2 -> place_after a1 <> Out) -> after_newline line = Some (c_nl :: y).
Proof.
  intros E O N. unfold after_newline. match goal with |- context [filter ?P _] => destruct (first_division P line a (c_nl :: y) E) as (l & L) end; [cbn [fst snd]; rewrite O; reflexivity| |match goal with |- match ?x with _ => _ end = _ => replace x with ((a, c_nl :: y) :: l) by (symmetry; exact L) end; reflexivity].
  intros a1 c a2 E2. cbn [fst snd]. destruct (c =?c c_nl) eqn:C; [|reflexivity]. apply eqc_true in C. subst c. destruct (place_eqb _ _) eqn:Q; [|reflexivity]. apply place_eqb_iff in Q. destruct (N _ _ E2 Q).
Qed.
Lemma flag_text_found s : b_flag_text s = true -> flag_text s.
Proof. intros H c C D. unfold b_flag_text in H. rewrite forallb_forall in H. specialize (H c C). apply negb_true_iff in H. apply holds_char_iff in D. congruence. Qed.
Lemma callable_found sh : callable sh = true -> shell_text sh /\ forall w ws, blank_words sh None = w :: ws -> ~ In w sh_cmds.
Proof.
  unfold callable, b_shell_text. intros H. apply andb_true_iff in H. destruct H as (H & H3). apply andb_true_iff in H. destruct H as (H1 & H2). split.
  - split; [intros c C; rewrite forallb_forall in H1; specialize (H1 c C); repeat split; intros ->; discriminate H1|]. destruct (blank_words sh None); [discriminate|]. intros X. apply holds_char_iff in X. rewrite X in H2. discriminate.
  - intros w ws E X. rewrite E in H3. apply negb_true_iff in H3. assert (builtin w = true) by (apply existsb_exists; exists w; split; [exact X|apply str_refl]). congruence.
Qed.
Lemma all_joined_iff line : all_joined line = true <-> forall x y, line = x ++ c_nl :: y -> exists x', x = x' ++ [c_bslash].
Proof.
  unfold all_joined. rewrite forallb_forall. split.
  - intros H x y E. specialize (H (x, c_nl :: y) (proj2 (in_divisions _ _ _) E)). cbn [fst snd] in H. change (c_nl =?c c_nl) with true in H. cbn [negb orb] in H. apply ends_in_iff in H. destruct H as (s' & c & -> & C). unfold is_bslash in C. apply eqc_true in C. subst c. eauto.
  - intros H [a [|c b]] I; [reflexivity|]. cbn [fst snd]. destruct (c =?c c_nl) eqn:C; [|reflexivity]. apply eqc_true in C. subst c. apply in_divisions in I. destruct (H _ _ I) as (x' & ->). apply ends_in_iff. exists x', c_bslash. auto.
Qed.
Lemma upto_found line a : upto_newline line a -> b_upto_newline line a = true.
Proof.
  intros (U1 & U2). unfold b_upto_newline. apply andb_true_iff. split; [exact (proj2 (all_joined_iff a) U1)|]. apply orb_true_iff. destruct U2 as [-> | (r & -> & N)]; [left; apply str_refl|right]. apply andb_true_iff. split.
  - apply existsb_exists. exists (a, c_nl :: r). split; [apply in_divisions; reflexivity|]. cbn [fst snd]. rewrite str_refl. reflexivity.
  - apply negb_true_iff. destruct (ends_in is_bslash a) eqn:E; [|reflexivity]. exfalso. apply N. apply ends_in_iff in E. destruct E as (s' & c & -> & C). apply eqc_true in C. subst c. eauto.
Qed.
Lemma recipe_lines_ok : forall fuel s ls l, length s < fuel -> recipe_lines fuel s = (ls, l) -> s = flat_map (fun l => l ++ [c_nl]) ls ++ l /\ (forall x, In x ls -> recipe_line x /\ odd_after x = false) /\ recipe_line l.
Proof.
  induction fuel as [|fuel IH]; intros s ls l L H; [lia|]. cbn [recipe_lines] in H.
  set (P := fun x : list ascii * list ascii => match snd x with c :: _ => (c =?c c_nl) && negb (odd_after (fst x)) | [] => false end) in H.
  match type of H with match ?x with _ => _ end = _ => destruct x as [|[a b] m] eqn:F end.
  - injection H as <- <-. split; [reflexivity|]. split; [intros x []|]. intros x y E. destruct (odd_after x) eqn:O; [reflexivity|]. exfalso. apply (filter_nil _ _ (x, c_nl :: y) F); [apply in_divisions; exact E|]. unfold P. cbn [fst snd]. rewrite O. reflexivity.
  - destruct (filter_first _ _ _ _ F) as (I1 & I2). apply in_divisions in I1. unfold P in I2. cbn [fst snd] in I2, H. destruct b as [|c b]; [discriminate I2|]. apply andb_true_iff in I2. destruct I2 as (I2 & I3). apply eqc_true in I2. subst c. apply negb_true_iff in I3. cbn [tl] in H.
    destruct (recipe_lines fuel b) as [ls' l'] eqn:R. injection H as <- <-. destruct (IH b ls' l') as (E & A & B); [rewrite I1, app_length in L; cbn [length] in L; lia|exact R|]. split; [|split; [|exact B]].
    + cbn [flat_map]. rewrite <- !app_assoc, I1, E. reflexivity.
    + intros x [<- | X]; [|exact (A x X)]. split; [|exact I3]. intros x y EA. destruct (odd_after x) eqn:O; [reflexivity|]. exfalso.
      (* then the division at x would come first *)
      assert (G : forall s a b m, filter P (divisions s) = (a, b) :: m -> forall x c y, a = x ++ c :: y -> P (x, c :: y ++ b) = false).
      { clear. intros s a b m F. enough (X : forall Q s a b m, filter Q (divisions s) = (a, b) :: m -> forall x c y, a = x ++ c :: y -> Q (x, c :: y ++ b) = false) by (eapply X; exact F).
        clear. intros Q s. revert Q. induction s as [|d s IHs]; intros Q a b m F x c y E.
        - cbn [divisions filter] in F. match type of F with (if ?x then _ else _) = _ => destruct x end; [|discriminate F]. injection F as <- _ _. destruct x; discriminate E.
        - cbn [divisions filter] in F. match type of F with (if ?x then _ else _) = _ => destruct x eqn:Q0 end; [injection F as <- _ _; destruct x; discriminate E|].
          rewrite filter_map in F. match type of F with map _ ?x = _ => destruct x as [|[a' b'] m'] eqn:F' end; [discriminate F|]. cbn [map fst snd] in F. injection F as <- <- _. destruct x as [|z x].
          + cbn [app] in E. injection E as <- E. destruct (filter_first _ _ _ _ F') as (I & _). apply in_divisions in I. subst s y. exact Q0.
          + cbn [app] in E. injection E as <- E. exact (IHs (fun x => Q (d :: fst x, snd x)) _ _ _ F' _ _ _ E). }
      specialize (G _ _ _ _ F x c_nl y EA). unfold P in G. cbn [fst snd] in G. rewrite O in G. discriminate G.
Qed.
Lemma blank_less_ok line : exists b, line = b ++ blank_less line /\ forallb isblank b = true /\ match blank_less line with c :: _ => isblank c = false | [] => True end.
Proof.
  induction line as [|c line (b & E & B & N)]; [exists []; repeat split|]. cbn [blank_less]. destruct (isblank c) eqn:C; [|exists []; repeat split; exact C]. exists (c :: b). cbn [app forallb]. rewrite C, B. repeat split; [congruence|exact N].
Qed.
Lemma name_of_ok : forall p acc, (forall c, In c acc -> c <> c_slash /\ c <> c_bslash) -> shell_name (acc ++ p) (name_of p acc) \/ exists d, shell_name (acc ++ p) (name_of p acc) /\ d = acc.
Proof.
  induction p as [|c p IH]; intros acc A; cbn [name_of].
  - left. rewrite app_nil_r. split; [intros X; destruct (A _ X); congruence|]. split; [intros X; destruct (A _ X); congruence|]. exists []. auto.
  - destruct ((c =?c c_slash) || (c =?c c_bslash)) eqn:C.
    + left. destruct (IH [] ltac:(intros ? [])) as [(H1 & H2 & d & E & K)|(_ & (H1 & H2 & d & E & K) & _)]; (split; [exact H1|]; split; [exact H2|]; cbn [app] in E; exists (acc ++ c :: d); split; [rewrite E at 1; rewrite <- app_assoc; reflexivity|]; right;
        assert (CC : c = c_slash \/ c = c_bslash) by (apply orb_true_iff in C; destruct C as [C|C]; apply eqc_true in C; auto);
        destruct K as [-> | (d' & z & -> & Z)]; [exists acc, c; auto|exists (acc ++ c :: d'), z; split; [rewrite <- app_assoc; reflexivity|exact Z]]).
    + assert (A' : forall x, In x (acc ++ [c]) -> x <> c_slash /\ x <> c_bslash).
      { intros x X. apply in_app_or in X. destruct X as [X|[<- | []]]; [exact (A x X)|]. apply orb_false_iff in C. destruct C as (C1 & C2). split; intros ->; discriminate. }
      destruct (IH _ A') as [K|(_ & K & _)]; rewrite <- app_assoc in K; left; exact K.
Qed.
Lemma shell_name_ok sh : shell_name sh (name_of sh []).
Proof. destruct (name_of_ok sh [] ltac:(intros ? [])) as [H|(_ & H & _)]; exact H. Qed.

(** C22, C23.  The tests of lines must succeed. *)
Theorem C22_check : forall os ped line restp shell flags ifs, t_construct os ped line restp shell flags ifs = true.
Proof.
  intros os ped line restp shell flags ifs. unfold t_construct. set (sh := or_else (s2l "/bin/sh") shell). set (fl := or_else (s2l (if ped then "-ec" else "-c")) flags).
  pose proof (C23_defaults os ped 3 line restp shell flags ifs) as D.
  assert (D' : construct os ped 3 line restp shell flags ifs = construct os ped 3 line restp (Some sh) (Some fl) ifs).
  { rewrite D. unfold sh, fl, or_else. destruct shell, flags, ped; reflexivity. }
  destruct (construct os ped 3 line restp shell flags ifs) as [rest|argv rest|argv rest|] eqn:R; symmetry in D'.
  - destruct (callable sh && b_flag_text fl) eqn:C; [|reflexivity]. apply andb_true_iff in C. destruct C as (C1 & C2). apply callable_found in C1. destruct C1 as (C1 & C3). apply flag_text_found in C2.
    unfold t_nothing. apply orb_true_iff. destruct (match rest with None => place_eqb (place_after line) Esc | Some _ => false end) eqn:E; [left; reflexivity|right].
    destruct (C22_nothing _ _ _ _ _ _ _ _ _ C1 C2 C3 D') as (a & EL & W & Y).
    { intros ->. intros X. rewrite X in E. discriminate E. }
    apply existsb_exists. exists (a, the_rest rest). split; [apply in_divisions; exact EL|]. cbn [fst snd]. rewrite str_refl, W. destruct rest as [r|]; [|reflexivity]. destruct (Y r eq_refl) as (y & ->). reflexivity.
  - unfold t_direct. destruct (C22_fits _ _ _ _ _ _ _ _ _ _ R) as (F1 & F2). rewrite !andb_true_iff. split; [split; [split|]|].
    + apply Nat.leb_le. exact F1.
    + apply Nat.leb_le. lia.
    + destruct restp; [|reflexivity]. pose proof (C22_rest _ _ _ _ _ _ _ _ _ R) as T. destruct rest as [r|].
      * destruct T as (a & y & E & -> & O & N). rewrite (newline_out _ _ _ E O N). apply ostr_refl.
      * rewrite (no_newline_out line T). reflexivity.
    + destruct (_ && negb _) eqn:G; [|reflexivity]. destruct (b_empty_then_joined line) eqn:B; [reflexivity|]. apply andb_true_iff in G. destruct G as (G1 & G2).
      assert (H1 : restp = true \/ ~ In c_nl line) by (apply orb_true_iff in G1; destruct G1 as [G1|G1]; [auto|]; right; intros X; apply holds_char_iff in X; rewrite X in G1; discriminate).
      assert (H2 : ~ empty_then_joined line) by (intros X; apply etj_found in X; congruence).
      assert (H3 : rest = None -> place_after line <> Esc) by (intros -> X; rewrite X in G2; discriminate G2).
      rewrite (C22_words _ _ _ _ _ _ _ _ _ _ R H1 H2 H3). destruct (C22_command _ _ _ _ _ _ _ _ _ _ R H1 H2 H3) as ((w & ws & W & NA) & (nm & args & EA & NS) & SH & FL & IF).
      rewrite strs_eqb_refl, W, (assignment_not _ NA), EA. destruct (holds_word nm special_utilities) eqn:HW; [apply holds_word_iff in HW; contradiction|]. cbn [negb andb].
      destruct SH as [-> | ->]; [|rewrite str_refl]; (destruct FL as [-> | [-> | ->]]; [|rewrite str_refl|rewrite str_refl, orb_true_r]); (destruct ifs as [i|]; [|reflexivity]; apply forallb_forall; intros c C; destruct (IF i c eq_refl C) as [-> | [-> | ->]]; reflexivity).
  - unfold t_shell. destruct os.
    + destruct (blank_less_ok line) as (b & EB & BB & NB). apply andb_true_iff. split.
      * destruct (C23_one_shell _ _ _ _ _ _ _ _ _ _ _ _ D' (shell_name_ok sh) EB BB NB) as (K1 & K2). cbv zeta. destruct (holds_word (name_of sh []) bourne_family) eqn:HW.
        -- apply holds_word_iff in HW. destruct (recipe_lines _ _) as [ls l] eqn:RL. destruct (recipe_lines_ok _ _ _ _ (Nat.lt_succ_diag_r _) RL) as (E & A & B). rewrite (K2 ls l HW E A B). apply strs_eqb_refl.
        -- rewrite K1; [apply strs_eqb_refl|]. intros X. apply holds_word_iff in X. congruence.
      * destruct restp; [|reflexivity]. cbn [andb]. match goal with |- (if ?x then _ else _) = _ => destruct x eqn:F end; [|reflexivity]. destruct (C23_one_shell_whole _ _ _ _ _ _ _ _ R) as (-> & _); [|reflexivity].
        intros x y E X. rewrite forallb_forall in F. specialize (F (x, c_nl :: y) (proj2 (in_divisions _ _ _) E)). cbn [fst snd] in F. rewrite X in F. discriminate F.
    + destruct (callable sh && b_flag_text fl) eqn:C; [|reflexivity]. apply andb_true_iff in C. destruct C as (C1 & C2). apply callable_found in C1. destruct C1 as (C1 & C3). apply flag_text_found in C2. destruct restp.
      * destruct (C23_verbatim _ _ _ _ _ _ _ _ C1 C2 C3 D') as (b & a & E & BB & U & A). apply existsb_exists. exists (b, a ++ the_rest rest). split; [apply in_divisions; exact E|]. cbn [fst snd]. rewrite BB. cbn [andb].
        apply existsb_exists. exists (a, the_rest rest). split; [apply in_divisions; reflexivity|]. cbn [fst snd]. rewrite str_refl, (upto_found (a ++ the_rest rest) a U). cbn [andb]. destruct a; [reflexivity|]. rewrite A by discriminate. apply strs_eqb_refl.
      * destruct (all_joined line) eqn:J; [|reflexivity]. destruct (C23_whole _ _ _ _ _ _ _ _ C1 C2 C3 (proj1 (all_joined_iff _) J) D') as (b & a & E & BB & A). apply existsb_exists. exists (b, a). split; [apply in_divisions; exact E|]. cbn [fst snd]. rewrite BB, A. apply strs_eqb_refl.
  - exfalso. exact (C23_ends _ _ _ _ _ _ _ R).
Qed.
Theorem C22_plain_check : forall os ped line restp, t_plain os ped line restp = true.
Proof.
  intros os ped line restp. unfold t_plain. destruct (blank_words line None) as [|w ws] eqn:B; [reflexivity|]. destruct (_ && _) eqn:C; [|reflexivity]. apply andb_true_iff in C. destruct C as (C & C3). apply andb_true_iff in C. destruct C as (C1 & C2).
  rewrite (C22_plain os ped 2 line restp w ws (flag_text_found _ C1) B); [apply strs_eqb_refl| |].
  - intros X. apply holds_char_iff in X. rewrite X in C2. discriminate.
  - intros X. assert (builtin w = true) by (apply existsb_exists; exists w; split; [exact X|apply str_refl]). rewrite H in C3. discriminate.
Qed.
Theorem C23_empty_check : forall ped line y sh fl ifs, t_empty ped line y sh fl ifs = true.
Proof.
  intros. unfold t_empty. cbv zeta. destruct (b_flag_text sh) eqn:F; [|reflexivity]. apply flag_text_found in F.
  assert (B : forallb isblank (filter isblank line) = true) by (apply forallb_forall; intros c C; apply filter_In in C; tauto). destruct (C23_empty ped 2 (filter isblank line) y sh fl ifs B F) as (-> & ->). rewrite str_refl. reflexivity.
Qed.
Lemma lines_follow l : lines_hold l = true.
Proof. apply forallb_forall. intros s _. unfold one_line. repeat match goal with |- context [let '(_, _) := ?x in _] => destruct x end. apply C22_check. Qed.
Lemma direct_follow l : direct_hold l = true.
Proof. apply forallb_forall. intros s _. unfold direct_line. repeat match goal with |- context [let '(_, _) := ?x in _] => destruct x end. apply C22_check. Qed.
Lemma plain_follow l : plain_hold l = true.
Proof. apply forallb_forall. intros s _. unfold plain_line. repeat match goal with |- context [let '(_, _) := ?x in _] => destruct x end. apply C22_plain_check. Qed.
Lemma empty_follow l : empty_hold l = true.
Proof. apply forallb_forall. intros s _. unfold empty_line. repeat match goal with |- context [let '(_, _) := ?x in _] => destruct x end. apply C23_empty_check. Qed.
Print Assumptions C22_check.
Print Assumptions C22_plain_check.
Print Assumptions C23_empty_check.
