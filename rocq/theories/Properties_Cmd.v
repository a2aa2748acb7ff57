(** C22, C23: the argument vector of a command line. *)
From Verif Require Import Base M_Cmd S_Cmd P_Cmd P_CmdSlow.
From Coq Require Import Lia.
Open Scope string_scope.
Open Scope list_scope.
Open Scope nat_scope.

(** * Without the shell *)
Lemma direct_fast : forall os ped fuel line restp shell flags ifs argv rest, construct os ped fuel line restp shell flags ifs = Direct argv rest ->
  fast restp os (skip_blanks line) [] [] None false false false false = Done argv rest /\ argv <> [] /\ skip_blanks line <> [] /\
  (shell = None \/ shell = Some default_shell) /\ (flags = None \/ flags = Some (s2l "-c") \/ flags = Some (s2l "-ec")) /\ (forall i c, ifs = Some i -> In c i -> c = c_sp \/ c = c_tab \/ c = c_nl).
Proof.
  intros os ped fuel line restp shell flags ifs argv rest R. destruct fuel as [|fuel]; [discriminate R|]. cbn [construct] in R. destruct (skip_blanks line) as [|c q] eqn:SL; [discriminate R|].
  cbv zeta in R.
  match type of R with match (if ?m then _ else _) with _ => _ end = _ => destruct m eqn:MAY end.
  - destruct (fast restp os (c :: q) [] [] None false false false false) as [r0|[|a l] r] eqn:F; try discriminate R.
    + exfalso. destruct os; [discriminate R|]. destruct (escape_line restp (c :: q)) as [t r]. destruct (_ =? _); [discriminate R|]. destruct (construct _ _ _ _ _ _ _ _); discriminate R.
    + injection R as <- <-. split; [reflexivity|]. split; [discriminate|]. split; [discriminate|].
      apply andb_true_iff in MAY. destruct MAY as (MAY & M3). apply andb_true_iff in MAY. destruct MAY as (M1 & M2). split; [|split].
      * destruct shell as [s|]; [|auto]. apply str_eqb_eq in M1. subst s. auto.
      * destruct flags as [f|]; [|auto]. unfold usual_flags in M3. apply orb_true_iff in M3. destruct M3 as [M3|M3]; apply str_eqb_eq in M3; subst f; auto.
      * intros i d -> D. rewrite forallb_forall in M2. specialize (M2 d D). apply orb_true_iff in M2. destruct M2 as [M2|M2]; [apply orb_true_iff in M2; destruct M2 as [M2|M2]|]; apply eqc_true in M2; auto.
  - exfalso. destruct os; [discriminate R|]. destruct (escape_line restp (c :: q)) as [t r]. destruct (_ =? _); [discriminate R|]. destruct (construct _ _ _ _ _ _ _ _); discriminate R.
Qed.

Lemma direct_words : forall os ped fuel line restp shell flags ifs argv rest, construct os ped fuel line restp shell flags ifs = Direct argv rest ->
  restp = true \/ ~ In c_nl line -> ~ empty_then_joined line -> (rest = None -> place_after line <> Esc) ->
  exists raws, written line = Some raws /\ argv = map (unquote Unq) raws /\ match raws with r :: _ => ~ assignment r | [] => True end.
Proof.
  intros os ped fuel line restp shell flags ifs argv rest R LN HZ DG. destruct (direct_fast _ _ _ _ _ _ _ _ _ _ R) as (F & _ & _). destruct (skip_blanks_out line) as (b & EB & BB & NB).
  assert (LN' : restp = true \/ ~ In c_nl (skip_blanks line)) by (destruct LN as [LN|LN]; [auto|]; right; intros X; apply LN; rewrite EB; apply in_or_app; auto).
  assert (HZ' : ~ empty_then_joined (skip_blanks line)) by (intros X; apply HZ; rewrite EB; apply hazard_blanks; auto).
  destruct (sim restp os (skip_blanks line) LN' HZ' _ (skip_blanks line) [] [] [] None [] None false false false false argv rest (le_n _)) as (raws & E1 & E2 & E3).
  - split; auto using word_new; try discriminate; try congruence. intros _. split; [reflexivity|apply no_assignment_nil].
  - exact F.
  - intros RN X. apply (DG RN). rewrite EB. unfold place_after in *. rewrite place_blanks; auto.
  - exists raws. split; [rewrite EB, written_blanks by exact BB; exact E1|]. split; [exact E2|exact (E3 eq_refl)].
Qed.

(** C22.  A line that is run without the shell is made of plain words, and the arguments are those a
    POSIX shell makes of it.  Excepted: an empty word directly before a continuation, and a last
    backslash with nothing after it. *)
Theorem C22_words : forall os ped fuel line restp shell flags ifs argv rest,
  construct os ped fuel line restp shell flags ifs = Direct argv rest ->
  restp = true \/ ~ In c_nl line -> ~ empty_then_joined line -> (rest = None -> place_after line <> Esc) ->
  shell_words line = Some argv.
Proof.
  intros os ped fuel line restp shell flags ifs argv rest R LN HZ DG. destruct (direct_words _ _ _ _ _ _ _ _ _ _ R LN HZ DG) as (raws & E1 & E2 & _). unfold shell_words. rewrite E1, E2. reflexivity.
Qed.

(** C22.  What is run without the shell is a simple command: it sets no variable and its name is not
    a special built-in utility or a reserved word; and the shell, its flags and IFS are the usual
    ones. *)
Theorem C22_command : forall os ped fuel line restp shell flags ifs argv rest,
  construct os ped fuel line restp shell flags ifs = Direct argv rest ->
  restp = true \/ ~ In c_nl line -> ~ empty_then_joined line -> (rest = None -> place_after line <> Esc) ->
  (exists w ws, written line = Some (w :: ws) /\ ~ assignment w) /\
  (exists name args, argv = name :: args /\ ~ In name special_utilities) /\
  (shell = None \/ shell = Some (s2l "/bin/sh")) /\ (flags = None \/ flags = Some (s2l "-c") \/ flags = Some (s2l "-ec")) /\
  (forall i c, ifs = Some i -> In c i -> c = c_sp \/ c = c_tab \/ c = c_nl).
Proof.
  intros os ped fuel line restp shell flags ifs argv rest R LN HZ DG. destruct (direct_fast _ _ _ _ _ _ _ _ _ _ R) as (F & NE & _ & D1 & D2 & D3). split; [|split; [|auto]].
  - destruct (direct_words _ _ _ _ _ _ _ _ _ _ R LN HZ DG) as (raws & E1 & E2 & E3). destruct raws as [|w ws]; [exfalso; apply NE; rewrite E2; reflexivity|]. exists w, ws. auto.
  - destruct argv as [|a l]; [contradiction|]. exists a, l. split; [reflexivity|]. intros X.
    pose proof (fast_head _ _ _ _ [] _ _ _ _ _ _ _ _ (le_n _) Logic.I F) as HO. cbn [head_ok] in HO.
    assert (forallb builtin special_utilities = true) as FB by reflexivity. rewrite forallb_forall in FB. rewrite (FB a X) in HO. discriminate HO.
Qed.

(** C22.  What remains to be run begins at the first newline outside quotes that is not after a
    backslash; nothing remains only if there is none. *)
Theorem C22_rest : forall os ped fuel line shell flags ifs argv rest,
  construct os ped fuel line true shell flags ifs = Direct argv rest ->
  match rest with
  | Some r => exists a y, line = a ++ r /\ r = c_nl :: y /\ place_after a = Out /\ forall a1 a2, a = a1 ++ c_nl :: a2 -> place_after a1 <> Out
  | None => forall a1 a2, line = a1 ++ c_nl :: a2 -> place_after a1 <> Out
  end.
Proof.
  intros os ped fuel line shell flags ifs argv rest R. destruct (direct_fast _ _ _ _ _ _ _ _ _ _ R) as (F & _). destruct (skip_blanks_out line) as (b & EB & BB & NB).
  pose proof (fast_rest _ _ _ _ _ _ _ _ _ _ _ _ (le_n _) (or_introl eq_refl) (fun x => False_ind _ (diff_false_true x)) F) as E. cbn [pof] in E.
  assert (NL : forall a1 a2 z, b ++ z = a1 ++ c_nl :: a2 -> exists c2, a1 = b ++ c2 /\ z = c2 ++ c_nl :: a2).
  { clear - BB. induction b as [|c b IH]; intros a1 a2 z Z; [exists a1; auto|]. cbn [forallb] in BB. apply andb_true_iff in BB. destruct BB as (B1 & B2). destruct a1 as [|d a1].
    - cbn in Z. injection Z as -> _. discriminate B1.
    - cbn in Z. injection Z as <- Z. destruct (IH B2 _ _ _ Z) as (c2 & -> & ->). exists c2. auto. }
  destruct rest as [r|].
  - symmetry in E. destruct (remains_some _ _ _ E) as (x & y & E1 & E2 & E3 & E4). exists (b ++ x), y. split; [rewrite EB, E1, app_assoc; reflexivity|]. split; [exact E2|]. split.
    + unfold place_after. rewrite place_blanks; auto.
    + intros a1 a2 Z. destruct (NL _ _ _ Z) as (c2 & -> & Z2). unfold place_after. rewrite place_blanks; auto. exact (E4 _ _ Z2).
  - symmetry in E. intros a1 a2 Z. rewrite EB in Z. destruct (NL _ _ _ Z) as (c2 & -> & Z2). unfold place_after. rewrite place_blanks; auto. exact (remains_none _ _ E _ _ Z2).
Qed.

(** C22.  The arguments with their null characters fit in a buffer of the length of the line plus
    one, and with the null pointer at the end in as many pointers (src/job.c:2489-2497). *)
Theorem C22_fits : forall os ped fuel line restp shell flags ifs argv rest,
  construct os ped fuel line restp shell flags ifs = Direct argv rest ->
  fold_right (fun a n => S (length a) + n) 0 argv <= length line + 1 /\ length argv + 1 <= length line + 1.
Proof.
  intros os ped fuel line restp shell flags ifs argv rest R. destruct (direct_fast _ _ _ _ _ _ _ _ _ _ R) as (F & _). destruct (skip_blanks_out line) as (b & EB & _).
  apply (fast_room _ _ _ _ _ _ _ _ _ _ _ _ _ (le_n _)) in F. change (fold_right (fun a n => S (length a) + n) 0 argv) with (room argv). rewrite EB, app_length. cbn [room fold_right length] in F. change (open_arg [] false) with 0 in F. lia.
Qed.

(** C22.  Plain words are run without the shell. *)
Lemma fast_words : forall restp os s args cur he, flag_text s -> (cur = [] -> he = false) -> (args = [] -> he = false) -> first_ok args (blank_words s (oc cur)) -> head_ok args ->
  fast restp os s args cur None he (negb (is_nil args)) false (is_nil cur) = Done (args ++ blank_words s (oc cur)) None.
Proof.
  intros restp os. induction s as [|c s IH]; intros args cur he FT CU HE FO HO.
  - cbn [fast blank_words] in *. unfold finish. cbv zeta. destruct cur as [|x cur].
    + cbn [oc ends negb orb] in *. rewrite app_nil_r. destruct args as [|a [|? ?]]; try reflexivity. cbn [head_ok] in HO. rewrite HO. reflexivity.
    + cbn [oc ends negb orb] in *. destruct args as [|a l]; [cbn [app]; rewrite (proj2 (FO eq_refl)); reflexivity|]. destruct l; reflexivity.
  - assert (NC := FT c (or_introl eq_refl)). assert (FT' : flag_text s) by (intros d D; apply FT; right; exact D).
    assert (NI : forall d, In d (s2l "#;*?[]&|<>(){}$`^~!'\" ++ [c_dq; c_nl]) -> (c =?c d) = false) by (intros d D; apply neqc; intros ->; contradiction).
    assert (MS : mem c sh_chars = false). { destruct (mem c sh_chars) eqn:M; [|reflexivity]. apply existsb_exists in M. destruct M as (d & D & E). apply eqc_true in E. subst d. exfalso. apply NC.
      assert (forallb (fun d => mem d (s2l "#;*?[]&|<>(){}$`^~!'\" ++ [c_dq; c_nl])) sh_chars = true) as FB by reflexivity. rewrite forallb_forall in FB. specialize (FB _ D). apply existsb_exists in FB. destruct FB as (d & D' & E'). apply eqc_true in E'. subst d. exact D'. }
    assert (N1 : (c =?c c_bslash) = false) by (apply NI; cbn; tauto). assert (N2 : (c =?c c_sq) = false) by (apply NI; cbn; tauto). assert (N3 : (c =?c c_nl) = false) by (apply NI; cbn; tauto).
    pose proof (dq_sh _ MS) as DQ. cbn [fast blank_words] in *. destruct (isblank c) eqn:BC.
    + destruct cur as [|x cur].
      * rewrite (CU eq_refl). cbn [oc ends is_nil andb app] in *. apply (IH args [] false); auto.
      * cbn [oc ends is_nil andb] in *. rewrite MS, N3, andb_false_r.
        assert ((c =?c c_eq) = false) as -> by (destruct (blank_cases _ BC) as [-> | ->]; reflexivity). rewrite N1, N2, DQ. cbn [orb]. cbv zeta.
        assert (SN : negb (is_nil args) || negb he = true). { destruct args; [rewrite (HE eq_refl)|]; reflexivity. } rewrite SN, andb_false_r.
        assert (BI : match args with [] => builtin (x :: cur) | _ => false end = false). { destruct args; [|reflexivity]. cbn [app] in FO. exact (proj2 (FO eq_refl)). } rewrite BI.
        pose proof (IH (args ++ [x :: cur]) [] false FT' (fun _ => eq_refl) (fun _ => eq_refl)) as G. cbn [oc is_nil] in G. rewrite <- app_assoc in G. cbn [app] in G |- *.
        assert (negb (is_nil (args ++ [x :: cur])) = true) as X by (destruct args; reflexivity). rewrite X in G. apply G.
        -- intros A. destruct args; discriminate A.
        -- destruct args as [|a l]; [exact BI|exact HO].
    + rewrite andb_false_r, MS, N3, andb_false_r. assert (OC : add (oc cur) [c] = oc (cur ++ [c])) by (destruct cur; reflexivity). rewrite OC in *.
      assert (NE : is_nil (cur ++ [c]) = false) by (destruct cur; reflexivity).
      assert (ND : forall he', (args = [] -> he' = false) -> fast restp os s args (cur ++ [c]) None he' (negb (is_nil args)) false false = Done (args ++ blank_words s (oc (cur ++ [c]))) None).
      { intros he' H'. rewrite <- NE at 2. apply IH; auto. intros A. destruct cur; discriminate A. }
      destruct (c =?c c_eq) eqn:EE.
      * destruct args as [|a l].
        -- exfalso. destruct (oc (cur ++ [c])) as [k|] eqn:OK; [|destruct cur; discriminate OK]. destruct (blank_words_first s k) as (x & l & E). rewrite E in FO. apply (proj1 (FO eq_refl)). apply in_or_app. left.
           assert (k = cur ++ [c]) as -> by (destruct cur; injection OK as <-; reflexivity). apply in_or_app. right. left. apply eqc_true in EE. exact EE.
        -- cbn [is_nil negb]. apply (ND true). discriminate.
      * rewrite N1, N2, DQ. cbn [orb]. apply ND. exact HE.
Qed.
Lemma fast_start : forall restp os t, fast restp os (skip_blanks t) [] [] None false false false false = fast restp os t [] [] None false false false true.
Proof. induction t as [|c t IH]; [reflexivity|]. cbn [skip_blanks]. destruct (isblank c) eqn:B; [rewrite IH; cbn [fast]; rewrite B; reflexivity|]. cbn [fast]. rewrite B. reflexivity. Qed.
Lemma skip_none : forall t, skip_blanks t = [] -> blank_words t None = [].
Proof. induction t as [|c t IH]; [reflexivity|]. cbn [skip_blanks blank_words]. destruct (isblank c); [exact IH|discriminate]. Qed.
Theorem C22_plain : forall os ped fuel line restp w ws, flag_text line -> blank_words line None = w :: ws -> ~ In c_eq w -> ~ In w sh_cmds ->
  construct os ped (S fuel) line restp (Some (s2l "/bin/sh")) (Some (s2l "-c")) None = Direct (w :: ws) None.
Proof.
  intros os ped fuel line restp w ws FT BW NE NB. cbn [construct]. destruct (skip_blanks line) as [|c q] eqn:SL; [rewrite (skip_none _ SL) in BW; discriminate BW|]. cbv zeta.
  match goal with |- context [if ?m then fast _ _ _ _ _ _ _ _ _ _ else _] => change m with true end. cbv iota. rewrite <- SL, fast_start.
  pose proof (fast_words restp os line [] [] false FT (fun _ => eq_refl) (fun _ => eq_refl)) as F. cbn [is_nil negb oc app] in F. rewrite BW in F. rewrite F; [reflexivity| |exact Logic.I].
  intros _. split; [exact NE|]. destruct (builtin w) eqn:B; [|reflexivity]. apply existsb_exists in B. destruct B as (v & V & E). apply str_eqb_eq in E. subst v. contradiction.
Qed.

(** * Through the shell *)
Lemma flag_escape : forall s, flag_text s -> escape_shell s = s.
Proof.
  induction s as [|c s IH]; intros F; [reflexivity|]. cbn [escape_shell flat_map]. fold (escape_shell s). rewrite IH by (intros d D; apply F; right; exact D).
  assert (mem c sh_chars = false) as ->; [|reflexivity]. destruct (mem c sh_chars) eqn:M; [|reflexivity]. apply existsb_exists in M. destruct M as (d & D & E). apply eqc_true in E. subst d. exfalso. apply (F c (or_introl eq_refl)).
  assert (forallb (fun d => mem d (s2l "#;*?[]&|<>(){}$`^~!'\" ++ [c_dq; c_nl])) sh_chars = true) as FB by reflexivity. rewrite forallb_forall in FB. specialize (FB _ D). apply existsb_exists in FB. destruct FB as (d & D' & E'). apply eqc_true in E'. subst d. exact D'.
Qed.
Lemma flag_clean : forall s, flag_text s -> clean s.
Proof. intros s F c C. specialize (F c C). repeat split; intros ->; apply F; cbn; tauto. Qed.
Lemma not_cmd : forall w, ~ In w sh_cmds -> builtin w = false.
Proof. intros w N. destruct (builtin w) eqn:B; [|reflexivity]. apply existsb_exists in B. destruct B as (v & V & E). apply str_eqb_eq in E. subst v. contradiction. Qed.
Lemma shell_inj : forall a b c d, Shell a b = Shell c d -> a = c /\ b = d.
Proof. intros a b c d H. injection H as -> ->. auto. Qed.
Definition last_word (a : str) : list str := match a with [] => [] | _ => [a] end.
Lemma inner : forall ped fuel restp sh fl p w ws, shell_text sh -> blank_words sh None = w :: ws -> ~ In w sh_cmds -> flag_text fl ->
  construct false ped (S fuel) (escape_shell sh ++ c_sp :: fl ++ c_sp :: fst (escape_line restp p)) false None None None
  = Direct ((w :: ws) ++ blank_words fl None ++ last_word (passed restp p)) None.
Proof.
  intros ped fuel restp sh fl p w ws (ST & SE) BW NB FT. rewrite BW in SE. cbn [construct]. set (text := escape_shell sh ++ c_sp :: fl ++ c_sp :: fst (escape_line restp p)).
  assert (F : fast false false (skip_blanks text) [] [] None false false false false = Done ((w :: ws) ++ blank_words fl None ++ last_word (passed restp p)) None).
  { rewrite fast_start. unfold text. pose proof (fast_shell (fl ++ c_sp :: fst (escape_line restp p)) sh [] [] false ST (fun _ => eq_refl) (fun _ => eq_refl)) as G. cbn [is_nil negb oc app] in G.
    rewrite G; [|intros _; rewrite BW; split; [exact SE|apply not_cmd; exact NB]]. rewrite BW. cbv zeta. cbn [is_nil negb]. clear G.
    pose proof (fast_shell (fst (escape_line restp p)) fl (w :: ws) [] false (flag_clean _ FT) (fun _ => eq_refl) (fun _ => eq_refl)) as G. cbn [is_nil negb oc] in G. rewrite (flag_escape _ FT) in G.
    rewrite G by (intros A; discriminate A). cbv zeta. assert (X : negb (is_nil ((w :: ws) ++ blank_words fl None)) = true) by reflexivity. rewrite X.
    erewrite fast_escaped; [|apply le_n|discriminate|cbn [app head_ok]; apply not_cmd; exact NB].
    unfold finish. cbv zeta. cbn [app]. destruct (passed restp p) as [|a l]; cbn [negb orb last_word].
    - rewrite !app_nil_r. destruct (ws ++ blank_words fl None) eqn:E; [rewrite (not_cmd _ NB)|]; reflexivity.
    - rewrite <- app_assoc. destruct ws; [destruct (blank_words fl None)|]; reflexivity. }
  cbv zeta.
  assert (U : usual_flags (if ped then s2l "-ec" else s2l "-c") = true) by (destruct ped; reflexivity). rewrite U. cbn [andb].
  destruct (skip_blanks text) as [|c q] eqn:SL; [|rewrite F; reflexivity]. cbn [fast finish negb orb] in F. discriminate F.
Qed.

(** C23.  A line that is run through the shell comes to it as one argument, unchanged up to the end of
    the line, after the words of SHELL and of .SHELLFLAGS.  The line ends at a newline that has no
    backslash before it; what remains begins there.  (A line without text is a case of its own; see
    [C23_empty_refuted].) *)
Theorem C23_verbatim : forall ped fuel line sh fl ifs argv rest, shell_text sh -> flag_text fl -> (forall w ws, blank_words sh None = w :: ws -> ~ In w sh_cmds) ->
  construct false ped (S (S fuel)) line true (Some sh) (Some fl) ifs = Shell argv rest ->
  exists b a, line = b ++ a ++ match rest with Some r => r | None => [] end /\ forallb isblank b = true /\
    upto_newline (a ++ match rest with Some r => r | None => [] end) a /\ (a <> [] -> argv = blank_words sh None ++ blank_words fl None ++ [a]).
Proof.
  intros ped fuel line sh fl ifs argv rest ST FT NB R. destruct (skip_blanks_out line) as (b & EB & BB & SB). remember (S fuel) as n eqn:EN. cbn [construct] in R. destruct (skip_blanks line) as [|c q] eqn:SL; [discriminate R|]. cbv zeta in R.
  match type of R with match ?x with _ => _ end = _ => destruct x as [r0|[|a0 l0] r0] eqn:F; try discriminate R end.
  destruct (passed_upto _ (c :: q) (le_n _)) as (U1 & U2).
  assert (R0 : r0 <> None -> snd (escape_line true (c :: q)) <> None).
  { intros N0 X. destruct r0 as [r0|]; [|contradiction]. match type of F with (if ?m then _ else _) = _ => destruct m; [|discriminate F] end.
    destruct (fast_slow false _ (c :: q) false [] [] None false false false false r0 (le_n _) (or_introl eq_refl)) as (x & E1 & (y & E2) & E3); [discriminate|discriminate|exact F|]. rewrite X, app_nil_r in U2.
    destruct (proj1 U1 x y) as (x' & E4); [rewrite <- U2, E1, E2; reflexivity|]. subst x. unfold before in E3. rewrite rev_app_distr in E3. cbn in E3. discriminate E3. }
  pose proof (fun w ws E => inner ped fuel true sh fl (c :: q) w ws ST E (NB w ws E) FT) as I.
  destruct (escape_line true (c :: q)) as [t r]. cbn [fst snd] in *. destruct (_ =? _); [discriminate R|]. destruct (blank_words sh None) as [|w ws] eqn:BW; [destruct ST as (_ & ST); rewrite BW in ST; contradiction|].
  subst n. rewrite (I w ws eq_refl) in R. apply shell_inj in R. destruct R as (<- & <-).
  exists b, (passed true (c :: q)). split; [|split; [exact BB|split]].
  - destruct r; [rewrite <- U2; exact EB|]. destruct r0; [exfalso; apply R0; [discriminate|reflexivity]|]. rewrite <- U2. exact EB.
  - destruct r; [rewrite <- U2; exact U1|]. destruct r0; [exfalso; apply R0; [discriminate|reflexivity]|]. rewrite <- U2. exact U1.
  - intros NE. destruct (passed true (c :: q)); [contradiction|]. reflexivity.
Qed.

(** C23.  The same for a text that is not cut into lines ($(shell)), if all newlines in it come after a
    backslash. *)
Theorem C23_whole : forall ped fuel line sh fl ifs argv rest, shell_text sh -> flag_text fl -> (forall w ws, blank_words sh None = w :: ws -> ~ In w sh_cmds) ->
  (forall x y, line = x ++ c_nl :: y -> exists x', x = x' ++ [c_bslash]) ->
  construct false ped (S (S fuel)) line false (Some sh) (Some fl) ifs = Shell argv rest ->
  exists b a, line = b ++ a /\ forallb isblank b = true /\ argv = blank_words sh None ++ blank_words fl None ++ [a].
Proof.
  intros ped fuel line sh fl ifs argv rest ST FT NB JO R. destruct (skip_blanks_out line) as (b & EB & BB & SB). remember (S fuel) as n eqn:EN. cbn [construct] in R. destruct (skip_blanks line) as [|c q] eqn:SL; [discriminate R|]. cbv zeta in R.
  match type of R with match ?x with _ => _ end = _ => destruct x as [r0|[|a0 l0] r0] eqn:F; try discriminate R end.
  assert (JO' : joined_only (c :: q)).
  { intros x y E. destruct (JO (b ++ x) y) as (x' & E'); [rewrite EB, E, app_assoc; reflexivity|]. destruct (snoc_cases x) as [-> | (z & d & ->)].
    - exfalso. rewrite app_nil_r in E'. rewrite E', forallb_app in BB. apply andb_true_iff in BB. destruct BB as (_ & BB). discriminate BB.
    - rewrite app_assoc in E'. apply app_inj_tail in E'. destruct E' as (_ & ->). exists z. reflexivity. }
  destruct (passed_all _ (c :: q) (le_n _) JO') as (U1 & U2).
  pose proof (fun w ws E => inner ped fuel false sh fl (c :: q) w ws ST E (NB w ws E) FT) as I.
  destruct (escape_line false (c :: q)) as [t r]. cbn [fst snd] in *. destruct (_ =? _); [discriminate R|]. destruct (blank_words sh None) as [|w ws] eqn:BW; [destruct ST as (_ & ST); rewrite BW in ST; contradiction|].
  subst n. rewrite (I w ws eq_refl), U1 in R. apply shell_inj in R. destruct R as (<- & <-). exists b, (c :: q). auto.
Qed.

(** C23.  The recursion is at most three deep, whatever the line, the shell and the flags. *)
Theorem C23_ends : forall os ped line restp shell flags ifs, construct os ped 3 line restp shell flags ifs <> TooDeep.
Proof.
  intros os ped line restp shell flags ifs.
  assert (TOP : forall line', construct false ped 2 line' false None None None <> TooDeep).
  { intros line'. remember 1 as n eqn:EN. cbn [construct]. destruct (skip_blanks line') as [|c q] eqn:SL; [discriminate|]. cbv zeta.
    match goal with |- match ?x with _ => _ end <> _ => destruct x as [r0|[|a0 l0] r0] eqn:F; try discriminate end.
    pose proof (inner ped 0 false default_shell (if ped then s2l "-ec" else s2l "-c") (c :: q) default_shell []) as I. destruct (escape_line false (c :: q)) as [t r]. cbn [fst] in I. destruct (_ =? _); [discriminate|].
    subst n. rewrite I; [discriminate| |reflexivity| |].
    - split; [|cbn; intuition discriminate]. intros d D. cbn in D. repeat split; intros ->; intuition discriminate.
    - intros D. cbn in D. repeat (destruct D as [D|D]; [discriminate D|]). exact D.
    - intros d D. destruct ped; cbn in D; intuition (subst d; cbn in *; intuition discriminate). }
  remember 2 as n eqn:EN. cbn [construct]. destruct (skip_blanks line) as [|c q]; [discriminate|]. cbv zeta.
  match goal with |- match ?x with _ => _ end <> _ => destruct x as [r0|[|a0 l0] r0] eqn:F; try discriminate end. destruct os; [discriminate|].
  destruct (escape_line restp (c :: q)) as [t r]. destruct (_ =? _); [discriminate|]. subst n. match goal with |- context [construct false ped 2 ?x false None None None] => pose proof (TOP x) as T; destruct (construct false ped 2 x false None None None) end; try discriminate. contradiction.
Qed.

(** * One shell for a recipe *)
Lemma tokens_words : forall s cur, tokens_of s cur = space_words s (oc cur).
Proof.
  induction s as [|c s IH]; intros cur; cbn [tokens_of space_words]; [destruct cur; reflexivity|]. destruct (isspace c).
  - destruct cur; cbn [oc ends app]; rewrite IH; reflexivity.
  - rewrite IH. destruct cur; reflexivity.
Qed.
Lemma after_last_name : forall d nm acc, ~ In c_slash nm -> ~ In c_bslash nm -> (d = [] -> acc = []) -> (d = [] \/ exists d' c, d = d' ++ [c] /\ (c = c_slash \/ c = c_bslash)) -> after_last (d ++ nm) acc = nm.
Proof.
  assert (Q : forall nm acc, ~ In c_slash nm -> ~ In c_bslash nm -> after_last nm acc = acc ++ nm).
  { induction nm as [|c nm IH]; intros acc A B; cbn [after_last]; [rewrite app_nil_r; reflexivity|]. rewrite (neqc c c_slash) by (intros ->; apply A; left; reflexivity). rewrite (neqc c c_bslash) by (intros ->; apply B; left; reflexivity).
    cbn [orb]. rewrite IH; [rewrite <- app_assoc; reflexivity| |]; intros X; [apply A|apply B]; right; exact X. }
  induction d as [|x d IH]; intros nm acc A B C D.
  - rewrite (C eq_refl). cbn [app]. apply Q; auto.
  - destruct D as [D|(d' & c & E & H)]; [discriminate D|]. cbn [app after_last]. destruct d' as [|y d'].
    + cbn in E. injection E as -> ->. assert ((c =?c c_slash) || (c =?c c_bslash) = true) as -> by (destruct H as [-> | ->]; reflexivity). cbn [app]. apply Q; auto.
    + cbn in E. injection E as <- E. destruct (_ || _); (apply IH; [exact A|exact B| |right; exists d', c; auto]); intros Z; rewrite Z in E; destruct d'; discriminate E.
Qed.
Lemma bourne_name : forall path nm, shell_name path nm -> (bourne path = true <-> In nm bourne_family).
Proof.
  intros path nm (A & B & d & -> & D). unfold bourne. rewrite after_last_name; auto. split.
  - intros H. apply existsb_exists in H. destruct H as (v & V & E). apply str_eqb_eq in E. subst v. exact V.
  - intros H. apply existsb_exists. exists nm. split; [exact H|apply str_eqb_refl].
Qed.
Definition odd_from (e : bool) (s : str) : bool := fold_left (fun e c => if c =?c c_bslash then negb e else false) s e.
Lemma strip_body : forall body e rest, (forall x y, body = x ++ c_nl :: y -> odd_from e x = true) ->
  strip_prefixes (body ++ rest) false e = body ++ strip_prefixes rest false (odd_from e body).
Proof.
  induction body as [|c body IH]; intros e rest H; [reflexivity|]. cbn [app strip_prefixes andb]. f_equal.
  assert (G : forall e', e' = (if c =?c c_bslash then negb e else false) -> strip_prefixes (body ++ rest) false e' = body ++ strip_prefixes rest false (odd_from e (c :: body))).
  { intros e' ->. unfold odd_from. cbn [fold_left]. apply IH. intros x y E. apply (H (c :: x) y). rewrite E. reflexivity. }
  destruct (c =?c c_bslash); [apply G; reflexivity|]. destruct (c =?c c_nl) eqn:E; [|cbn [andb]; apply G; reflexivity].
  apply eqc_true in E. subst c. specialize (H [] body eq_refl). cbn in H. subst e. cbn [negb andb]. apply G. reflexivity.
Qed.
Lemma prefix_char : forall c, isblank c || (c =?c c_minus) || (c =?c c_at) || (c =?c c_plus) = isblank c || existsb (fun d => c =?c d) (s2l "-@+").
Proof. intros c. cbn -[Ascii.eqb]. rewrite orb_false_r, !orb_assoc. reflexivity. Qed.
Lemma strip_line : forall body rest, recipe_line body ->
  (odd_after body = false -> strip_prefixes (body ++ c_nl :: rest) true false = drop_prefix body ++ c_nl :: strip_prefixes rest true false) /\ strip_prefixes body true false = drop_prefix body.
Proof.
  intros body rest. induction body as [|c body IH]; intros H; [split; reflexivity|].
  cbn [app strip_prefixes drop_prefix andb]. rewrite prefix_char. destruct (isblank c || existsb (fun d => c =?c d) (s2l "-@+")) eqn:PC.
  - assert (E : (c =?c c_bslash) = false). { destruct (c =?c c_bslash) eqn:X; [|reflexivity]. apply eqc_true in X. subst c. discriminate PC. }
    destruct IH as (I1 & I2). { intros x y Z. specialize (H (c :: x) y). rewrite Z in H. specialize (H eq_refl). unfold odd_after in *. cbn [fold_left] in H. rewrite E in H. exact H. }
    split; [|exact I2]. intros O. apply I1. unfold odd_after in *. cbn [fold_left] in O. rewrite E in O. exact O.
  - assert (G : forall r e', e' = (if c =?c c_bslash then true else false) -> (c =?c c_nl) = false -> strip_prefixes (body ++ r) false e' = body ++ strip_prefixes r false (odd_after (c :: body))).
    { intros r e' -> NL. unfold odd_after. cbn [fold_left]. rewrite strip_body; [destruct (c =?c c_bslash); reflexivity|]. intros x y E. pose proof (H (c :: x) y) as HH. rewrite E in HH. specialize (HH eq_refl). unfold odd_after in HH. cbn [fold_left] in HH. destruct (c =?c c_bslash); exact HH. }
    assert (NL : (c =?c c_nl) = false). { destruct (c =?c c_nl) eqn:X; [|reflexivity]. apply eqc_true in X. subst c. specialize (H [] body eq_refl). discriminate H. }
    rewrite NL. cbn [andb]. split.
    + intros O. cbn [app]. f_equal. assert (K : strip_prefixes (c_nl :: rest) false (odd_after (c :: body)) = c_nl :: strip_prefixes rest true false) by (rewrite O; reflexivity). rewrite <- K.
      destruct (c =?c c_bslash) eqn:E; apply G; auto; rewrite E; reflexivity.
    + f_equal. pose proof (fun e' A => G [] e' A NL) as G0. rewrite app_nil_r in G0. cbn [strip_prefixes] in G0. rewrite app_nil_r in G0. destruct (c =?c c_bslash) eqn:E; apply G0; reflexivity.
Qed.
Definition with_newlines (ls : list str) : str := flat_map (fun l => l ++ [c_nl]) ls.
Lemma strip_lines : forall ls lst, (forall l, In l ls -> recipe_line l /\ odd_after l = false) -> recipe_line lst ->
  strip_prefixes (with_newlines ls ++ lst) true false = with_newlines (map drop_prefix ls) ++ drop_prefix lst.
Proof.
  induction ls as [|l ls IH]; intros lst A B.
  - cbn. apply (strip_line lst []). exact B.
  - cbn [with_newlines flat_map map]. fold (with_newlines ls). fold (with_newlines (map drop_prefix ls)). rewrite <- !app_assoc. cbn [app]. destruct (A l (or_introl eq_refl)) as (A1 & A2).
    rewrite (proj1 (strip_line l (with_newlines ls ++ lst) A1) A2). f_equal. f_equal. apply IH; [|exact B]. intros k K. apply A. right. exact K.
Qed.

(** C23.  With .ONESHELL the shell is one argument, the words of the flags follow, and the recipe is the
    last: for a shell of the Bourne family every line of it without its prefix characters, for another
    as it is. *)
Theorem C23_one_shell : forall ped fuel line restp sh fl ifs argv rest nm b body, construct true ped fuel line restp (Some sh) (Some fl) ifs = Shell argv rest ->
  shell_name sh nm -> line = b ++ body -> forallb isblank b = true -> (match body with c :: _ => isblank c = false | [] => True end) ->
  (~ In nm bourne_family -> argv = sh :: space_words fl None ++ [body]) /\
  (forall ls lst, In nm bourne_family -> body = flat_map (fun l => l ++ [c_nl]) ls ++ lst -> (forall l, In l ls -> recipe_line l /\ odd_after l = false) -> recipe_line lst ->
     argv = sh :: space_words fl None ++ [flat_map (fun l => l ++ [c_nl]) (map drop_prefix ls) ++ drop_prefix lst]).
Proof.
  intros ped fuel line restp sh fl ifs argv rest nm b body R SN EL BB NB. destruct fuel as [|fuel]; [discriminate R|].
  assert (SL : skip_blanks line = body). { rewrite EL. clear - BB NB. induction b as [|c b IH]; [destruct body as [|d body]; [reflexivity|]; cbn [app skip_blanks]; rewrite NB; reflexivity|]. cbn [forallb] in BB. apply andb_true_iff in BB. destruct BB as (B1 & B2). cbn [app skip_blanks]. rewrite B1. auto. }
  cbn [construct] in R. rewrite SL in R. destruct body as [|c q] eqn:EB; [discriminate R|]. rewrite <- EB in *. cbv zeta in R.
  match type of R with match ?x with _ => _ end = _ => destruct x as [r0|[|a0 l0] r0] eqn:F; try discriminate R end.
  apply shell_inj in R. destruct R as (<- & <-). rewrite tokens_words. cbn [oc]. pose proof (bourne_name _ _ SN) as BN. split.
  - intros N. destruct (bourne sh); [exfalso; apply N; apply BN; reflexivity|]. reflexivity.
  - intros ls lst IN E A B. apply BN in IN. rewrite IN. assert (E' : strip_prefixes body true false = with_newlines (map drop_prefix ls) ++ drop_prefix lst) by (rewrite E; apply strip_lines; auto). rewrite E'. reflexivity.
Qed.

(** C23.  Nothing of a .ONESHELL recipe is cut off if no newline is inside quotes. *)
Lemma fast_one_slow : forall n p args cur i he sne last skip r, length p <= n -> i = None \/ i = Some c_sq -> (skip = true -> i = None) ->
  fast true true p args cur i he sne last skip = Slow (Some r) -> exists x y, p = x ++ c_nl :: y /\ fold_left next x (pof i) = InS.
Proof.
  induction n as [|n IH]; intros p args cur i he sne last skip r L QI SK R; (destruct p as [|c q]; [|cbn [length] in L; try (exfalso; lia)]).
  1,2: cbn [fast] in R; unfold finish in R; destruct i; [discriminate R|]; cbv zeta in R; destruct (if _ || last then _ else _) as [|? [|? ?]]; try destruct (builtin _); discriminate R.
  assert (GO : forall z q' args' cur' i' he' sne' last' skip', c :: q = z ++ q' -> fold_left next z (pof i) = pof i' -> length q' <= n -> i' = None \/ i' = Some c_sq -> (skip' = true -> i' = None) ->
     fast true true q' args' cur' i' he' sne' last' skip' = Slow (Some r) -> exists x y, c :: q = x ++ c_nl :: y /\ fold_left next x (pof i) = InS).
  { intros z q' args' cur' i' he' sne' last' skip' E Z LQ Q S0 F. destruct (IH _ _ _ _ _ _ _ _ _ LQ Q S0 F) as (x & y & E1 & E2). exists (z ++ x), y. split; [rewrite E, E1, app_assoc; reflexivity|]. rewrite fold_left_app, Z. exact E2. }
  cbn [fast] in R. destruct (skip && isblank c) eqn:SB.
  { apply andb_true_iff in SB. destruct SB as (SB1 & SB2). rewrite (SK SB1) in *. refine (GO [c] _ _ _ _ _ _ _ _ eq_refl _ _ _ _ R); auto; [|lia]. destruct (blank_cases _ SB2) as [-> | ->]; reflexivity. }
  destruct i as [k|].
  { destruct QI as [?|KE]; [discriminate|]. injection KE as ->. destruct (c =?c c_sq) eqn:E1.
    { apply eqc_true in E1. subst c. refine (GO [c_sq] _ _ _ _ _ _ _ _ eq_refl _ _ _ _ R); auto. lia. }
    cbv zeta in R.
    assert (OTHER : (if (c =?c c_nl) && true then finish (Some c_sq) args cur last (Some (c :: q)) else if (c_sq =?c c_dq) && mem c (s2l "\$`") then Slow None
             else fast true true q args (cur ++ [c]) (Some c_sq) he sne last false) = Slow (Some r) -> exists x y, c :: q = x ++ c_nl :: y /\ fold_left next x (pof (Some c_sq)) = InS).
    { intros O. rewrite andb_true_r in O. destruct (c =?c c_nl) eqn:EN; [apply eqc_true in EN; subst c; exists [], q; auto|]. change (c_sq =?c c_dq) with false in O. cbn [andb] in O.
      refine (GO [c] _ _ _ _ _ _ _ _ eq_refl _ _ _ _ O); auto; [|lia|discriminate]. cbn [fold_left next pof]. rewrite E1. reflexivity. }
    destruct (c =?c c_bslash) eqn:E2; [|exact (OTHER R)]. destruct q as [|d q']; [exact (OTHER R)|]. destruct (d =?c c_nl) eqn:E3; [|exact (OTHER R)].
    apply eqc_true in E2, E3. subst c d. exists [c_bslash], q'. auto. }
  clear QI. destruct (mem c sh_chars) eqn:MS; [discriminate R|]. destruct (true && (c =?c c_nl)) eqn:NN; [discriminate R|]. cbn [andb] in NN. pose proof (dq_sh _ MS) as DQ.
  destruct (c =?c c_eq) eqn:E1.
  { apply eqc_true in E1. subst c. destruct (negb sne); [discriminate R|]. refine (GO [c_eq] _ _ _ _ _ _ _ _ eq_refl _ _ _ _ R); auto. lia. }
  destruct (c =?c c_bslash) eqn:E2.
  { apply eqc_true in E2. subst c. destruct q as [|d q'].
    - exfalso. cbn [fast] in R. unfold finish in R. cbv zeta in R. destruct (if _ || last then _ else _) as [|? [|? ?]]; try destruct (builtin _); discriminate R.
    - cbn [length] in L. destruct (d =?c c_nl) eqn:E3; refine (GO [c_bslash; d] _ _ _ _ _ _ _ _ eq_refl _ _ _ _ R); auto; lia. }
  rewrite DQ, orb_false_r in R. destruct (c =?c c_sq) eqn:E3.
  { apply eqc_true in E3. subst c. refine (GO [c_sq] _ _ _ _ _ _ _ _ eq_refl _ _ _ _ R); auto; [lia|discriminate]. }
  assert (PL : fold_left next [c] (pof None) = pof None) by (cbn [fold_left next pof]; rewrite E2, E3, DQ; reflexivity).
  rewrite NN in R. destruct (isblank c) eqn:E5.
  { cbv zeta in R. destruct (he && _); [discriminate R|]. destruct (match args with [] => builtin cur | _ => false end); [discriminate R|]. refine (GO [c] _ _ _ _ _ _ _ _ eq_refl _ _ _ _ R); auto. lia. }
  refine (GO [c] _ _ _ _ _ _ _ _ eq_refl _ _ _ _ R); auto. lia.
Qed.
Theorem C23_one_shell_whole : forall ped fuel line sh fl ifs argv rest, construct true ped fuel line true sh fl ifs = Shell argv rest ->
  (forall x y, line = x ++ c_nl :: y -> place_after x <> InS) ->
  rest = None /\ handed true line (construct true ped fuel line true sh fl ifs) = Shell argv None.
Proof.
  intros ped fuel line sh fl ifs argv rest R NQ. assert (N : rest = None).
  { destruct fuel as [|fuel]; [discriminate R|]. destruct (skip_blanks_out line) as (b & EB & BB & SB). cbn [construct] in R. destruct (skip_blanks line) as [|c q] eqn:SL; [discriminate R|]. cbv zeta in R.
    match type of R with match ?x with _ => _ end = _ => destruct x as [r0|[|a0 l0] r0] eqn:F; try discriminate R end. apply shell_inj in R. destruct R as (_ & <-).
    match type of F with (if ?m then _ else _) = _ => destruct m; [|injection F as <-; reflexivity] end. destruct r0 as [r0|]; [|reflexivity]. exfalso.
    destruct (fast_one_slow _ (c :: q) [] [] None false false false false r0 (le_n _) (or_introl eq_refl) (fun _ => eq_refl) F) as (x & y & E1 & E2). apply (NQ (b ++ x) y); [rewrite EB, E1, app_assoc; reflexivity|].
    unfold place_after. rewrite place_blanks; auto. }
  subst rest. rewrite R. auto.
Qed.

(** * When nothing is run *)
Lemma finish_some : forall i args cur last r argv rest, finish i args cur last r = Done argv rest -> args <> [] \/ cur <> [] \/ last = true \/ i <> None -> argv <> [].
Proof.
  intros i args cur last r argv rest. unfold finish. destruct i; [discriminate|]. cbv zeta. intros R H X. subst argv.
  assert (E : (if negb (match cur with [] => true | _ => false end) || last then args ++ [cur] else args) = []).
  { match goal with |- ?x = [] => destruct x as [|w [|? ?]] end; [reflexivity| |discriminate R]. destruct (builtin w); discriminate R. }
  destruct (negb _ || last) eqn:B; [destruct args; discriminate E|]. apply orb_false_iff in B. destruct B as (B1 & ->). destruct cur; [|discriminate B1]. subst args. intuition congruence.
Qed.
Lemma fast_some : forall restp os n p args cur i he sne last skip argv rest, length p <= n -> fast restp os p args cur i he sne last skip = Done argv rest ->
  args <> [] \/ cur <> [] \/ last = true \/ i <> None -> argv <> [].
Proof.
  intros restp os. induction n as [|n IH]; intros p args cur i he sne last skip argv rest L R H; (destruct p as [|c q]; [|cbn [length] in L; try (exfalso; lia)]);
    try (cbn [fast] in R; exact (finish_some _ _ _ _ _ _ _ R H)).
  assert (NE : forall (x : str) y, x ++ [y] <> []) by (intros [|? ?] ?; discriminate). assert (NE2 : forall (x : str) y z, x ++ [y; z] <> []) by (intros [|? ?] ? ?; discriminate).
  assert (NE3 : forall (x : list str) y, x ++ [y] <> []) by (intros [|? ?] ?; discriminate).
  cbn [fast] in R. destruct (skip && isblank c); [eapply IH in R; eauto; lia|].
  destruct i as [k|].
  { cbv zeta in R. destruct (c =?c k).
    { eapply IH; [|exact R|]; [lia|]. destruct cur; [right; right; left; apply orb_true_r|right; left; discriminate]. }
    repeat match type of R with
           | (if ?b then _ else _) = _ => destruct b; try discriminate R
           | match ?l with [] => _ | _ :: _ => _ end = _ => destruct l
           end; try discriminate R; cbn [length] in L;
    (eapply IH; [|exact R|]; [cbn [length]; lia|right; right; right; discriminate]). }
  destruct (mem c sh_chars); [discriminate R|]. destruct (os && _); [discriminate R|].
  destruct (c =?c c_eq). { destruct (negb sne); [discriminate R|]. eapply IH; [|exact R|]; [lia|auto]. }
  destruct (c =?c c_bslash). { destruct q as [|d q']; [cbn [fast] in R; exact (finish_some _ _ _ _ _ _ _ R H)|]. cbn [length] in L. destruct (d =?c c_nl); (eapply IH; [|exact R|]; [lia|auto]). }
  destruct (_ || _). { eapply IH; [|exact R|]; [lia|right; right; right; discriminate]. }
  destruct (c =?c c_nl). { destruct restp; [exact (finish_some _ _ _ _ _ _ _ R H)|]. eapply IH; [|exact R|]; [lia|auto]. }
  destruct (isblank c). 2:{ eapply IH; [|exact R|]; [lia|auto]. }
  cbv zeta in R. destruct (he && _); [discriminate R|]. destruct args as [|a l].
  - destruct (builtin cur) eqn:B; [discriminate R|]. eapply IH; [|exact R|]; [lia|left; discriminate].
  - eapply IH; [|exact R|]; [lia|left; discriminate].
Qed.
Lemma written_blank : forall c s, isblank c = true -> written (c :: s) = written s.
Proof. intros c s B. change (c :: s) with ([c] ++ s). apply written_blanks. cbn. rewrite B. reflexivity. Qed.
Definition what_rests (rest : option str) : str := match rest with Some r => r | None => [] end.
Lemma fast_nothing : forall restp os n p he sne rest, length p <= n -> fast restp os p [] [] None he sne false true = Done [] rest -> (rest = None -> place_after p <> Esc) ->
  exists a, p = a ++ what_rests rest /\ written a = Some [] /\ forall r, rest = Some r -> exists y, r = c_nl :: y.
Proof.
  intros restp os. induction n as [|n IH]; intros p he sne rest L R D; (destruct p as [|c q]; [|cbn [length] in L; try (exfalso; lia)]);
    try (cbn in R; injection R as <-; exists []; repeat split; discriminate).
  cbn [fast] in R. destruct (isblank c) eqn:B; cbn [andb] in R.
  { destruct (IH q he sne rest) as (a & -> & W & Y); [lia|exact R| |].
    - intros E X. apply (D E). change (c :: q) with ([c] ++ q). unfold place_after. rewrite place_blanks; auto. cbn. rewrite B. reflexivity.
    - exists (c :: a). split; [reflexivity|]. split; [rewrite written_blank; auto|exact Y]. }
  destruct (mem c sh_chars); [discriminate R|]. destruct (os && _); [discriminate R|].
  assert (NO : forall q' cur i he' sne' skip, fast restp os q' [] cur i he' sne' false skip = Done [] rest -> cur <> [] \/ i <> None -> False).
  { intros q' cur i he' sne' skip F H. apply (fast_some _ _ _ _ _ _ _ _ _ _ _ _ _ (le_n _)) in F; [congruence|tauto]. }
  destruct (c =?c c_eq). { destruct (negb sne); [discriminate R|]. exfalso. eapply NO; [exact R|left; discriminate]. }
  destruct (c =?c c_bslash) eqn:CB.
  { apply eqc_true in CB. subst c. destruct q as [|d q']; [cbn in R; injection R as <-; exfalso; apply (D eq_refl); reflexivity|]. cbn [length] in L. destruct (d =?c c_nl) eqn:DN; [|exfalso; eapply NO; [exact R|left; discriminate]].
    apply eqc_true in DN. subst d. destruct (IH q' he sne rest) as (a & -> & W & Y); [lia|exact R| |].
    - intros E X. apply (D E). exact X.
    - exists (c_bslash :: c_nl :: a). split; [reflexivity|]. split; [exact W|exact Y]. }
  destruct (_ || _). { exfalso. eapply NO; [exact R|right; discriminate]. }
  destruct (c =?c c_nl) eqn:CN. { destruct restp; [|exfalso; eapply NO; [exact R|left; discriminate]]. cbn in R. injection R as <-. apply eqc_true in CN. subst c. exists []. split; [reflexivity|]. split; [reflexivity|]. intros r E. injection E as <-. exists q. reflexivity. }
  exfalso. eapply NO; [exact R|left; discriminate].
Qed.
Lemma escape_shell_longer : forall sh, length sh <= length (escape_shell sh).
Proof. induction sh as [|c sh IH]; [apply le_n|]. cbn [escape_shell flat_map]. fold (escape_shell sh). rewrite app_length. destruct (mem c sh_chars); cbn [length]; lia. Qed.

(** C22, C23.  If nothing is run, then the line has no word up to its end, or up to the newline where
    the rest begins.  Excepted: a last backslash with nothing after it. *)
Theorem C22_nothing : forall os ped fuel line restp sh fl ifs rest, shell_text sh -> flag_text fl -> (forall w ws, blank_words sh None = w :: ws -> ~ In w sh_cmds) ->
  construct os ped fuel line restp (Some sh) (Some fl) ifs = Nothing rest -> (rest = None -> place_after line <> Esc) ->
  exists a, line = a ++ match rest with Some r => r | None => [] end /\ shell_words a = Some [] /\ forall r, rest = Some r -> exists y, r = c_nl :: y.
Proof.
  intros os ped fuel line restp sh fl ifs rest ST FT NB R DG. destruct fuel as [|fuel]; [discriminate R|]. destruct (skip_blanks_out line) as (b & EB & BB & SB).
  assert (W : forall s, written s = Some [] -> shell_words s = Some []) by (intros s E; unfold shell_words; rewrite E; reflexivity).
  cbn [construct] in R. destruct (skip_blanks line) as [|c q] eqn:SL.
  { injection R as <-. exists line. split; [rewrite app_nil_r; reflexivity|]. split; [|discriminate]. apply W. rewrite EB. rewrite written_blanks by exact BB. reflexivity. }
  cbv zeta in R. match type of R with match ?x with _ => _ end = _ => destruct x as [r0|[|a0 l0] r0] eqn:F; try discriminate R end.
  - destruct os; [discriminate R|]. pose proof (fun w ws E => inner ped (pred fuel) restp sh fl (c :: q) w ws ST E (NB w ws E) FT) as I.
    destruct (escape_line restp (c :: q)) as [t r] eqn:EL. cbn [fst] in I. destruct (_ =? _) eqn:LE.
    + apply Nat.eqb_eq in LE. rewrite !app_length in LE. cbn [length] in LE. rewrite app_length in LE. cbn [length] in LE. pose proof (escape_shell_longer sh). destruct t as [|x t]; [|cbn [length] in LE; lia].
      cbn [escape_line] in EL. destruct (restp && (c =?c c_nl)) eqn:N.
      * injection EL as <-. injection R as <-. apply andb_true_iff in N. destruct N as (_ & N). apply eqc_true in N. subst c. exists b. split; [exact EB|]. split.
        -- apply W. rewrite <- (app_nil_r b), written_blanks by exact BB. reflexivity.
        -- intros r E. injection E as <-. exists q. reflexivity.
      * exfalso. clear - EL. cbv zeta in EL. assert (X : forall (x : str * option str) (u : str) d, (let '(t0, r1) := x in (u ++ d :: t0, r1)) = ([], r) -> False) by (intros [? ?] u d E; destruct u; discriminate E).
        set (u := if (c =?c c_bslash) || (c =?c c_sq) || (c =?c c_dq) || isspace c || mem c sh_chars then [c_bslash] else []) in EL.
        destruct (c =?c c_bslash); [|exact (X (escape_line restp q) u c EL)]. destruct q as [|d q']; [exact (X (escape_line restp []) u c EL)|]. destruct (d =?c c_nl); [|exact (X (escape_line restp (d :: q')) u c EL)]. destruct (escape_line restp q'). discriminate EL.
    + exfalso. destruct ST as (ST1 & ST2). destruct (blank_words sh None) as [|w ws] eqn:BW; [contradiction|]. destruct fuel as [|fuel]; [discriminate R|]. cbn [pred] in I. rewrite (I w ws eq_refl) in R. discriminate R.
  - match type of F with (if ?m then _ else _) = _ => destruct m; [|discriminate F] end. injection R as <-. rewrite <- SL, fast_start in F. destruct (fast_nothing _ _ _ _ _ _ _ (le_n _) F DG) as (a & E & E2 & Y). exists a. auto.
Qed.

(** C23.  And an empty line runs nothing, if the name of the shell has no special character. *)
Theorem C23_empty : forall ped fuel b y sh fl ifs, forallb isblank b = true -> flag_text sh ->
  construct false ped (S fuel) (b ++ c_nl :: y) true (Some sh) fl ifs = Nothing (Some (c_nl :: y)) /\ construct false ped (S fuel) b true (Some sh) fl ifs = Nothing None.
Proof.
  intros ped fuel b y sh fl ifs BB FT.
  assert (SB : forall s, match s with c :: _ => isblank c = false | [] => True end -> skip_blanks (b ++ s) = s).
  { intros s H. induction b as [|c b IH]; [destruct s as [|d s]; [reflexivity|]; cbn [app skip_blanks]; rewrite H; reflexivity|]. cbn [forallb] in BB. apply andb_true_iff in BB. destruct BB as (B1 & B2). cbn [app skip_blanks]. rewrite B1. auto. }
  split.
  - cbn [construct]. rewrite (SB (c_nl :: y) eq_refl). cbv zeta.
    match goal with |- match (if ?m then _ else _) with _ => _ end = _ => destruct m end; [reflexivity|]. cbn [escape_line andb]. change (c_nl =?c c_nl) with true. cbv iota.
    rewrite (flag_escape _ FT), !app_length. cbn [length]. rewrite !app_length. cbn [length]. match goal with |- (if ?x =? ?y then _ else _) = _ => replace x with y by lia end. rewrite Nat.eqb_refl. reflexivity.
  - cbn [construct]. rewrite <- (app_nil_r b), (SB [] Logic.I). reflexivity.
Qed.

(** C22, C23.  Without a shell or flags the usual ones are taken. *)
Theorem C23_defaults : forall os ped fuel line restp shell flags ifs,
  construct os ped fuel line restp shell flags ifs =
  construct os ped fuel line restp (Some (match shell with Some s => s | None => s2l "/bin/sh" end)) (Some (match flags with Some f => f | None => if ped then s2l "-ec" else s2l "-c" end)) ifs.
Proof. intros os ped [|fuel] line restp [s|] [f|] ifs; reflexivity. Qed.

(** * What does not hold *)
(** C22.  An empty argument before a backslash-newline and a blank is lost. *)
Theorem C22_empty_argument_refuted : exists line argv, construct false false 3 line true (Some (s2l "/bin/sh")) (Some (s2l "-c")) None = Direct argv None /\
  argv = map s2l ["test1"; "bar"] /\ shell_words line = Some (map s2l ["test1"; ""; "bar"]).
Proof. exists (s2l "test1 ''\" ++ c_nl :: s2l " bar"), (map s2l ["test1"; "bar"]). vm_compute. auto. Qed.
(** C22.  A backslash at the end is lost. *)
Theorem C22_last_backslash_refuted : exists line argv, construct false false 3 line true (Some (s2l "/bin/sh")) (Some (s2l "-c")) None = Direct argv None /\
  argv = map s2l ["echo"; "a"] /\ shell_words line = Some (map s2l ["echo"; "a\"]).
Proof. exists (s2l "echo a\"), (map s2l ["echo"; "a"]). vm_compute. auto. Qed.
(** C22.  In a text that is not cut into lines ($(shell)) a newline is part of a word, where the shell
    ends the command. *)
Theorem C22_newline_refuted : exists line argv, construct false false 3 line false (Some (s2l "/bin/sh")) (Some (s2l "-c")) None = Direct argv None /\
  argv = [s2l "echo"; s2l "a" ++ c_nl :: s2l "echo"; s2l "b"] /\ shell_words line = Some (map s2l ["echo"; "a"]).
Proof. exists (s2l "echo a" ++ c_nl :: s2l "echo b"), [s2l "echo"; s2l "a" ++ c_nl :: s2l "echo"; s2l "b"]. vm_compute. auto. Qed.
(** C23.  And if such a text goes through the shell the newline is lost: the two commands become one. *)
Theorem C23_newline_refuted : exists line argv, construct false false 3 line false (Some (s2l "/bin/sh")) (Some (s2l "-c")) None = Shell argv None /\
  line = s2l "echo $a" ++ c_nl :: s2l "date" /\ argv = map s2l ["/bin/sh"; "-c"; "echo $adate"].
Proof. exists (s2l "echo $a" ++ c_nl :: s2l "date"), (map s2l ["/bin/sh"; "-c"; "echo $adate"]). vm_compute. auto. Qed.
(** C23.  A shell whose first word has an equal sign, or is the name of a built-in, is itself run by
    the default shell. *)
Theorem C23_shell_word_refuted : exists sh line argv, construct false false 3 line true (Some sh) (Some (s2l "-c")) None = Shell argv None /\
  sh = s2l "command bash" /\ line = s2l "echo a" /\ argv = map s2l ["/bin/sh"; "-c"; "command bash -c echo\ a"].
Proof. exists (s2l "command bash"), (s2l "echo a"), (map s2l ["/bin/sh"; "-c"; "command bash -c echo\ a"]). vm_compute. auto. Qed.
(** C23.  A line that begins with a newline is not taken as empty if SHELL has a special character: the
    shell is run without a command. *)
Theorem C23_empty_refuted : exists sh line argv rest, construct false false 3 line true (Some sh) (Some (s2l "-c")) None = Shell argv (Some rest) /\
  rest = line /\ argv = map s2l ["/opt/[sh]"; "-c"].
Proof. exists (s2l "/opt/[sh]"), (c_nl :: s2l "echo a"), (map s2l ["/opt/[sh]"; "-c"]), (c_nl :: s2l "echo a"). vm_compute. auto. Qed.
(** C23.  A .ONESHELL recipe is cut at a newline inside quotes, and what follows is run as a command of
    its own. *)
Theorem C23_one_shell_cut_refuted : exists line argv rest, handed true line (construct true false 3 line true (Some (s2l "/bin/sh")) (Some (s2l "-c")) None) = Shell argv (Some rest) /\
  line = s2l "printf 'a" ++ c_nl :: s2l "b'" /\ argv = map s2l ["/bin/sh"; "-c"; "printf 'a"] /\ rest = c_nl :: s2l "b'".
Proof. exists (s2l "printf 'a" ++ c_nl :: s2l "b'"), (map s2l ["/bin/sh"; "-c"; "printf 'a"]), (c_nl :: s2l "b'"). vm_compute. auto. Qed.

(** * The hypotheses are met *)
Example C22_words_met : construct false false 3 (s2l " cp  'a b' c\ d e\" ++ c_nl :: s2l "f ''") true (Some (s2l "/bin/sh")) (Some (s2l "-c")) (Some (s2l " ")) = Direct (map s2l ["cp"; "a b"; "c d"; "ef"; ""]) None /\
  shell_words (s2l " cp  'a b' c\ d e\" ++ c_nl :: s2l "f ''") = Some (map s2l ["cp"; "a b"; "c d"; "ef"; ""]) /\ place_after (s2l " cp  'a b' c\ d e\" ++ c_nl :: s2l "f ''") <> Esc.
Proof. vm_compute. repeat split. discriminate. Qed.
Example C22_not_joined : ~ empty_then_joined (s2l "cp 'a b' c").
Proof.
  intros (pre & w & b & post & E & _). assert (H : In c_nl (s2l "cp 'a b' c")). { rewrite E. apply in_or_app. right. apply in_or_app. right. right. left. reflexivity. }
  cbn in H. repeat (destruct H as [H|H]; [discriminate H|]). exact H.
Qed.
Example C22_rest_met : construct false false 3 (s2l "a 'b" ++ c_bslash :: c_nl :: s2l "c'" ++ c_nl :: s2l "d") true None None None = Direct [s2l "a"; s2l "b\" ++ c_nl :: s2l "c"] (Some (c_nl :: s2l "d")).
Proof. vm_compute. reflexivity. Qed.
Example C22_plain_met : flag_text (s2l "gcc -o x y=1") /\ blank_words (s2l "gcc -o x y=1") None = map s2l ["gcc"; "-o"; "x"; "y=1"].
Proof. split; [|reflexivity]. intros c C. cbn in C. repeat (destruct C as [<- | C]; [cbn; intuition discriminate|]). contradiction. Qed.
Example C23_verbatim_met : construct false false 3 (s2l "for i in a b; do echo ""$i"" | sed 's/\/*//'; \" ++ c_nl :: s2l "done" ++ c_nl :: s2l "rm x") true (Some (s2l "/usr/bin/env bash")) (Some (s2l "-e -c")) None
  = Shell (map s2l ["/usr/bin/env"; "bash"; "-e"; "-c"] ++ [s2l "for i in a b; do echo ""$i"" | sed 's/\/*//'; \" ++ c_nl :: s2l "done"]) (Some (c_nl :: s2l "rm x")) /\
  shell_text (s2l "/usr/bin/env bash") /\ flag_text (s2l "-e -c") /\ ~ In (s2l "/usr/bin/env") sh_cmds.
Proof.
  split; [vm_compute; reflexivity|]. split; [|split].
  - split; [|cbn; intuition discriminate]. intros c C. cbn in C. repeat (destruct C as [<- | C]; [repeat split; discriminate|]). contradiction.
  - intros c C. cbn in C. repeat (destruct C as [<- | C]; [cbn; intuition discriminate|]). contradiction.
  - intros D. cbn in D. repeat (destruct D as [D|D]; [discriminate D|]). exact D.
Qed.
Example C23_one_shell_met : construct true false 3 (s2l "@a \" ++ c_nl :: s2l "-b" ++ c_nl :: s2l " @-c $x") true (Some (s2l "/usr/bin/bash")) (Some (s2l "-e -c")) None
  = Shell (map s2l ["/usr/bin/bash"; "-e"; "-c"] ++ [s2l "a \" ++ c_nl :: s2l "-b" ++ c_nl :: s2l "c $x"]) None /\ shell_name (s2l "/usr/bin/bash") (s2l "bash") /\
  recipe_line (s2l "@a \" ++ c_nl :: s2l "-b") /\ odd_after (s2l "@a \" ++ c_nl :: s2l "-b") = false /\ recipe_line (s2l " @-c $x").
Proof.
  split; [vm_compute; reflexivity|]. split; [|split; [|split; [reflexivity|]]].
  - split; [intros D; cbn in D; intuition discriminate|]. split; [intros D; cbn in D; intuition discriminate|]. exists (s2l "/usr/bin/"). split; [reflexivity|]. right. exists (s2l "/usr/bin"), c_slash. auto.
  - intros x y E. cbn in E. do 4 (destruct x as [|? x]; [discriminate E|]; injection E as <- E). destruct x as [|? x]; [reflexivity|]. injection E as <- E.
    do 2 (destruct x as [|? x]; [discriminate E|]; injection E as <- E). destruct x; discriminate E.
  - intros x y E. cbn in E. repeat (destruct x as [|? x]; [discriminate E|]; injection E as <- E). destruct x; discriminate E.
Qed.

Example C22_nothing_met : construct false false 3 (s2l " \" ++ c_nl :: s2l " " ++ c_nl :: s2l "a") true (Some (s2l "/bin/sh")) (Some (s2l "-c")) None = Nothing (Some (c_nl :: s2l "a")) /\
  construct false false 3 (s2l "  " ++ c_nl :: s2l "a") true (Some (s2l "/bin/bash")) (Some (s2l "-c")) None = Nothing (Some (c_nl :: s2l "a")).
Proof. vm_compute. auto. Qed.
Print Assumptions C22_nothing.
Print Assumptions C23_empty.
Print Assumptions C23_defaults.
Print Assumptions C22_words.
Print Assumptions C22_command.
Print Assumptions C22_rest.
Print Assumptions C22_fits.
Print Assumptions C22_plain.
Print Assumptions C23_verbatim.
Print Assumptions C23_whole.
Print Assumptions C23_ends.
Print Assumptions C23_one_shell.
Print Assumptions C23_one_shell_whole.
