(** C62: the line of a rule. *)
From Verif Require Import Base M_Text M_Quote M_Var M_Def M_Implicit M_Seq M_RuleLine S_Text S_Expand S_Eval S_Quote S_Def S_Seq S_RuleLine P_Text P_Quote P_Def P_Seq P_RuleLine Properties_Seq.
Open Scope string_scope.
Open Scope list_scope.
Open Scope nat_scope.

(** What ends the line's first part: a comment, or a recipe behind a semicolon. *)
Inductive ending := Nothing_more | Comment (text : str) | Recipe (text : str).
Definition ending_text (e : ending) : str := match e with Nothing_more => [] | Comment t => c_hash :: t | Recipe t => c_semi :: t end.
Definition recipe_of (e : ending) : option str := match e with Recipe t => Some t | _ => None end.
(** ":" or "&:". *)
Definition colon (group : bool) : str := if group then s2l "&:" else s2l ":".
(** The line of a rule with targets [T]: [D] is behind the colons. *)
Definition rule_line (T : str) (group double : bool) (D : str) (e : ending) : str :=
  T ++ colon group ++ (if double then [c_colon] else []) ++ D ++ ending_text e.
(** A makefile writer's line: complete references; a single colon is not the start of "::" or ":::=". *)
Definition good_line (T : str) (group double : bool) (D : str) (e : ending) : Prop :=
  whole T /\ whole D /\ colon_may_follow T /\ ~ In c_nl (rule_line T group double D e) /\
  (e <> Nothing_more -> forall t, D <> t ++ [c_bslash]) /\
  (double = false -> forall t, D <> c_colon :: t) /\ (double = true -> forall t, D <> s2l "$=" ++ t).
(** The targets of the line: the words of the text before the colon, expanded, read as file names. *)
Definition line_names (expand : str -> str) (T : str) (e : ending) (ns : list str) : Prop :=
  exists ws xs names, layout T ws /\ ws <> [] /\ Forall2 (fun w x => target_text (recipe_of e) (expand w) x) ws xs /\
    reads no_stop isblank (spaced xs) names [] /\ grouped (map clean names) ns /\ Forall ordinary ns.
Definition target_names (expand : str -> str) (T : str) (e : ending) (ns : list str) : Prop := line_names expand T e ns /\ ns <> [].

Lemma names_are tilde glob members text names ns : reads no_stop isblank text names [] -> grouped (map clean names) ns -> Forall ordinary ns ->
  parse_file_seq no_stop false false false false false false None tilde glob members text = Names ns [].
Proof.
  intros R G O.
  destruct (C58_names no_stop false false false false false false None tilde glob members text names []) as (ns' & G' & E).
  - split; reflexivity.
  - exact R.
  - left. intros a x b _. reflexivity.
  - cbn beta iota in G'. rewrite (grouped_unique _ _ G' _ G) in E. rewrite E; [rewrite map_id; reflexivity|]. right. split; [reflexivity|exact O].
Qed.

Lemma to_any expand tilde glob members posix (PL : forall s, ~ In c_dollar s -> expand s = s) T group double D e ns :
  good_line T group double D e -> line_names expand T e ns ->
  read_rule expand tilde glob members posix (rule_line T group double D e) =
    match ns with [] => No_targets | _ =>
    match parse_var_assignment D with
    | Some (text, over) => Assign ns (text ++ match e with Recipe t => c_semi :: t | _ => [] end) over
    | None => ordinary_rule expand tilde glob members ns group double [] D (recipe_of e)
    end end.
Proof.
  intros (WT & WD & CM & NL & NB & D1 & D2) (ws & xs & names & LA & NE & F2 & RD & GR & OR).
  set (R := (if double then [c_colon] else []) ++ D).
  assert (WR : whole R) by (apply whole_app; [destruct double; [apply wh_char; [cbn; intuition discriminate|constructor]|constructor]|exact WD]).
  assert (WM : whole (colon group)) by (destruct group; repeat (apply wh_char; [cbn; intuition discriminate|]); constructor).
  assert (WH : whole (T ++ colon group ++ R)) by (apply whole_app; [exact WT|apply whole_app; assumption]).
  assert (EL : rule_line T group double D e = (T ++ colon group ++ R) ++ ending_text e) by (unfold rule_line, R; rewrite <- !app_assoc; reflexivity).
  assert (EM : colon group = mark group) by (destruct group; reflexivity).
  unfold read_rule. rewrite EL. unfold find_map_unquote.
  rewrite (cut_whole _ (T ++ colon group ++ R) eq_refl WH); [|lia|].
  2:{ intros c r H. destruct e as [|t|t]; cbn [ending_text] in H; [discriminate| |]; injection H as <- <-; (split; [reflexivity|]); rewrite app_nil_r;
      intros b q E ->; (assert (EE : T ++ colon group ++ R = rev q ++ [c_bslash]) by (rewrite <- (rev_involutive (T ++ colon group ++ R)), E; reflexivity));
      (assert (LD : D <> [] -> exists t, D = t ++ [c_bslash])
        by (intros ND; destruct (exists_last ND) as (l & x & EX); exists l; rewrite EX; f_equal; unfold R in EE; rewrite EX, !app_assoc in EE; apply app_inj_tail in EE; destruct EE as [_ ->]; reflexivity));
      (destruct D as [|d D']; [|destruct LD as (t' & X); [discriminate|]; exact (NB ltac:(discriminate) t' X)]);
      unfold R in EE; rewrite app_nil_r in EE; (destruct double; [rewrite !app_assoc in EE; apply app_inj_tail in EE; destruct EE as [_ EE]; discriminate|]);
      rewrite app_nil_r in EE; (destruct group; [change (colon true) with ([c_amp] ++ [c_colon]) in EE; rewrite app_assoc in EE|]); apply app_inj_tail in EE; destruct EE as [_ EE]; discriminate. }
  cbn [rev app f_before f_rest].
  assert (SEMI : match hit_of (ending_text e) with Some (c :: r) => if c =?c c_hash then None else Some r | _ => None end = recipe_of e) by (destruct e; reflexivity).
  rewrite SEMI. clear SEMI.
  assert (NLH : ~ In c_nl (T ++ colon group ++ R)) by (intros I; apply NL; rewrite EL; apply in_or_app; left; exact I).
  rewrite (collapse_nonl posix _ NLH). rewrite EM.
  (* the first word *)
  inversion LA as [b B|b w t ws' B W NW SP LA' E1 E2]; subst ws; [congruence|]. subst T.
  inversion F2 as [|? x ? xs' X F2' E1 E2]; subst.
  assert (OF : ok_follow w (t ++ mark group ++ R)).
  { destruct t as [|c r]; [|right; exists c, (r ++ mark group ++ R); split; [reflexivity|left; exact (SP c r eq_refl)]]. cbn [app]. rewrite app_nil_r in CM. right.
    destruct group; cbn [mark app].
    - exists c_amp, (c_colon :: R). split; [reflexivity|]. right. split; [right; split; [reflexivity|exists R; reflexivity]|exact (cmf_tail b w CM)].
    - exists c_colon, R. split; [reflexivity|]. right. split; [left; reflexivity|exact (cmf_tail b w CM)]. }
  rewrite <- !app_assoc. rewrite (next_word b w (t ++ mark group ++ R) B W NW OF).
  assert (CM' : colon_may_follow t) by (rewrite app_assoc in CM; exact (cmf_tail _ _ CM)).
  destruct (words_layout expand t ws' LA' (recipe_of e) xs' F2' (mark group ++ R)) with (fuel := S (length (t ++ mark group ++ R))) (pre := @nil ascii) (p2 := expand w) (x := x) as (fuel' & FP & EW).
  - right. destruct group; cbn [mark app].
    + exists c_amp, (c_colon :: R). split; [reflexivity|]. split; [right; split; [reflexivity|exists R; reflexivity]|exact CM'].
    + exists c_colon, R. split; [reflexivity|]. split; [left; reflexivity|exact CM'].
  - exact X.
  - lia.
  - rewrite EW. clear EW. destruct (colon_word group R) as (ty & B0 & rest & EG & NT & ER & EB). rewrite EG.
    assert (F0 : 0 < fuel') by (apply FP; destruct group; discriminate). destruct fuel' as [|fuel']; [lia|].
    assert (SM : forall A (a b : A), match ty with w_eol => a | _ => b end = b) by (intros A a b'; destruct ty; [congruence|reflexivity..]). rewrite SM. clear SM.
    (* B0 is plain *)
    assert (PB : ~ In c_dollar B0 /\ ~ In c_semi B0 /\ forall e' r, B0 = [c_colon; e'] -> rest = c_eq :: r -> e' <> c_dollar /\ e' <> c_hash).
    { destruct EB as [[-> _]|[-> |[-> |(e' & r & -> & ->)]]]; [split; [|split]; [cbn; tauto|cbn; tauto|discriminate]|split; [|split]; [cbn; intuition discriminate|cbn; intuition discriminate|discriminate]|split; [|split]; [cbn; intuition discriminate|cbn; intuition discriminate|discriminate]|].
      cbn [app] in ER. assert (Q : double = true /\ D = e' :: c_eq :: r).
      { unfold R in ER. destruct double; cbn [app] in ER; [injection ER as ->; auto|]. exfalso. exact (D1 eq_refl _ ER). }
      destruct Q as [-> ->]. assert (ND : e' <> c_dollar) by (intros ->; exact (D2 eq_refl r eq_refl)).
      assert (NH : ~ In e' (s2l "$;#")) by (inversion WD; subst; [assumption|congruence|congruence]).
      assert (NS : e' <> c_semi /\ e' <> c_hash) by (split; intros ->; apply NH; cbn; tauto). destruct NS as [NS1 NS2].
      split; [|split].
      - cbn. intros [Q|[Q|[]]]; [discriminate|exact (ND Q)].
      - cbn. intros [Q|[Q|[]]]; [discriminate|exact (NS1 Q)].
      - intros e'' r' Q _. injection Q as <-. split; assumption. }
    destruct PB as (PB1 & PB2 & PB3).
    assert (PX : ~ In c_dollar (mark group ++ B0)) by (intros I; apply in_app_or in I; destruct I as [I|I]; [destruct group; cbn in I; intuition discriminate|exact (PB1 I)]).
    rewrite (PL _ PX), words_colon by exact PB2. cbn [app].
    assert (SPA : spaced (x :: xs') = spaced (x :: xs')) by reflexivity.
    rewrite (names_are tilde glob members _ names ns RD GR OR). destruct ns as [|n0 ns']; [reflexivity|].
    assert (REC : match recipe_of e with Some s => collapse_continuations posix (c_semi :: s) | None => [] end = match e with Recipe t => c_semi :: t | _ => [] end).
    { destruct e as [|tx|tx]; cbn [recipe_of]; [reflexivity|reflexivity|]. apply collapse_nonl. intros I. apply NL. rewrite EL. apply in_or_app. right. exact I. }
    match goal with |- (let '(_, _) := ?m in _) = _ => assert (SPL : exists B1, m = (double, B1) /\ B1 ++ rest = D /\ (B1 = [] \/ B1 = [c_eq] \/ exists e' r, B1 = [e'] /\ rest = c_eq :: r /\ e' <> c_dollar /\ e' <> c_hash)) end.
    { unfold R in ER. destruct EB as [[-> NC]|[-> |[-> |(e' & r & -> & ->)]]]; cbn [app] in ER.
      - exists []. destruct double; cbn [app] in *; [exfalso; exact (NC D eq_refl)|]. subst rest. auto.
      - exists []. destruct double; cbn [app] in ER; [injection ER as <-; auto|exfalso; exact (D1 eq_refl _ ER)].
      - exists [c_eq]. destruct double; cbn [app] in ER; [discriminate|]. subst D. auto.
      - exists [e']. destruct double; cbn [app] in ER; [injection ER as ->|exfalso; exact (D1 eq_refl _ ER)]. split; [reflexivity|]. split; [reflexivity|]. right. right. exists e', r. destruct (PB3 e' r eq_refl eq_refl). auto. }
    destruct SPL as (B1 & -> & ED & EB1). rewrite ED. destruct (parse_var_assignment D) as [[text over]|] eqn:PV; [f_equal; f_equal; exact REC|].
    destruct EB1 as [-> |[-> |(e' & r & -> & -> & N1 & N2)]].
    + cbn [app] in ED. subst rest. reflexivity.
    + exfalso. subst D. cbn [app] in PV. assert (Q : assigns (trim (c_eq :: rest)) false (c_eq :: rest)) by (apply as_definition; apply eq_defines). apply assignment_iff in Q. congruence.
    + exfalso. subst D. cbn [app] in PV. destruct (char_eq_defines e' r N2 N1) as (u & o & Q). congruence.
Qed.
Lemma to_ordinary expand tilde glob members posix (PL : forall s, ~ In c_dollar s -> expand s = s) T group double D e ns :
  good_line T group double D e -> target_names expand T e ns ->
  read_rule expand tilde glob members posix (rule_line T group double D e) =
    match parse_var_assignment D with
    | Some (text, over) => Assign ns (text ++ match e with Recipe t => c_semi :: t | _ => [] end) over
    | None => ordinary_rule expand tilde glob members ns group double [] D (recipe_of e)
    end.
Proof. intros G [L N]. rewrite (to_any expand tilde glob members posix PL T group double D e ns G L). destruct ns; [congruence|reflexivity]. Qed.

(** The line of a rule: the words before the colon are its targets.  If modifiers and a definition follow, it is a
    target-specific assignment; otherwise the text is expanded, a recipe begins behind a semicolon, and a further colon
    makes a static pattern rule. *)
Theorem C62_rule :
  forall expand tilde glob members posix, (forall s, ~ In c_dollar s -> expand s = s) ->
  forall T group double D e ns, good_line T group double D e -> target_names expand T e ns ->
  let result := read_rule expand tilde glob members posix (rule_line T group double D e) in
  (forall text over, assigns (trim D) over text ->
     result = Assign ns (text ++ match e with Recipe t => c_semi :: t | _ => [] end) over) /\
  ((forall text over, ~ assigns (trim D) over text) -> (forall a b, D <> a ++ s2l "\=" ++ b) ->
   let (x, recipe) := match e with Recipe t => (expand D, Some t) | _ => upto c_semi (expand D) end in
   (snd (upto c_colon x) = None -> result = Rule (mkrule ns group double None (of_text (strip x)) recipe)) /\
   (forall w p a b, reads (fun c => c =?c c_colon) isblank x [w] (c_colon :: p) -> ~ In c_lparen w -> upto c_percent (clean w) = (a, Some b) ->
      result = Rule (mkrule ns group double (Some (a ++ c_percent :: b)) (of_text (strip p)) recipe))).
Proof.
  intros expand tilde glob members posix PL T group double D e ns GL TN result. unfold result. rewrite (to_ordinary expand tilde glob members posix PL T group double D e ns GL TN). clear result.
  split.
  - intros text over A. apply assignment_iff in A. rewrite A. reflexivity.
  - intros NA NQ. destruct (parse_var_assignment D) as [[u o]|] eqn:PV; [apply assignment_iff in PV; exfalso; exact (NA u o PV)|].
    unfold ordinary_rule. cbn [app length].
    assert (RC : f_before (find_char_unquote D c_eq) ++ match f_rest (find_char_unquote D c_eq) with Some r => r | None => [] end = D).
    { rewrite find_char_unquote_spec by discriminate. pose proof (unq_recombine c_eq D ltac:(discriminate) 0 (or_introl eq_refl) NQ) as U.
      destruct (unq (fun x => x =?c c_eq) 0 D) as [a r]. cbn [f_before f_rest]. exact U. }
    rewrite RC.
    assert (ED : expand [] = []) by (apply PL; intros []).
    set (xr := match e with Recipe t => (expand D, Some t) | _ => upto c_semi (expand D) end).
    match goal with |- let (x, recipe) := xr in (_ -> (let '(_, _) := ?m in _) = _) /\ _ => assert (EX : m = xr) end.
    { unfold xr. destruct D as [|d D']; [rewrite ED; destruct e; reflexivity|]. cbn [firstn app Nat.leb].
      assert (U : forall p2, (let f := find_char_unquote p2 c_semi in match f_rest f with Some (_ :: r) => (f_before f, Some r) | _ => (f_before f, None) end) = upto c_semi p2).
      { intros p2. cbv zeta. rewrite find_char_unquote_spec by discriminate. unfold upto. destruct (unq (fun x => x =?c c_semi) 0 p2) as [a [[|q r]|]]; reflexivity. }
      destruct e as [|t|t]; cbn [recipe_of]; [apply U|apply U|reflexivity]. }
    rewrite EX. clear EX. destruct xr as [x recipe]. cbn [fst snd]. split.
    + intros NC. rewrite raw_upto, NC. unfold strip_whitespace. rewrite !trim_next. reflexivity.
    + intros w p a b R NP UP. 
      assert (RR : raw_colon 0 x = true) by (rewrite (reads_raw isblank x [w] (c_colon :: p)); [reflexivity|auto|exact R]). rewrite RR.
      destruct (C58_names (fun c => c =?c c_colon) false false false true false false None tilde glob members x [w] (c_colon :: p)) as (ns' & G & E).
      * split; [reflexivity|]. intros c H. destruct (c =?c c_colon) eqn:Q; [apply eqc_true in Q; subst c; discriminate|reflexivity].
      * exact R.
      * right. constructor; [exact NP|constructor].
      * cbn [map] in G. apply grouped_one in G. subst ns'. rewrite E by (left; reflexivity). cbn [map pre].
        rewrite find_percent_cached_eq. unfold find_percent. destruct (find_upto c_percent (clean w) ltac:(discriminate)) as (a' & r' & F & _ & Y). apply Y in UP. destruct UP as [-> ->].
        rewrite F. cbn [f_rest f_before]. unfold strip_whitespace. rewrite !trim_next. reflexivity.
Qed.
Print Assumptions C62_rule.

Lemma clean_paren w : In c_lparen (clean w) -> In c_lparen w.
Proof.
  unfold clean. destruct (undot_split w false) as (u & A & _). destruct (undot false w) as [|a r]; [cbn; intuition discriminate|]. intros I. rewrite A. apply in_or_app. right. exact I.
Qed.
(** The colon may also come from the expansion of a word [w], with targets before it and prerequisites and a recipe
    behind it.  (If blanks follow such a colon see C62_shift_refuted.) *)
Definition without_amp (x : str) (group : bool) (y : str) : Prop := if group then x = y ++ s2l "&" else x = y /\ forall z, x <> z ++ s2l "&".
Theorem C62_expanded :
  forall expand tilde glob members posix T ws w D e xs y recipe D' x r group tx names ns (double : bool) p,
  whole T -> whole D -> ~ In c_nl (T ++ D) -> (e <> Nothing_more -> forall t, T ++ D <> t ++ [c_bslash]) ->
  layout T (ws ++ [w]) -> (forall c t, rev T = c :: t -> isblank c = false) -> (forall c t, D = c :: t -> isblank c = true) ->
  Forall2 (fun w x => target_text (recipe_of e) (expand w) x) ws xs ->
  (match e with
   | Recipe t => y = expand w /\ recipe = Some t /\ D' = D
   | _ => upto c_semi (expand w) = (y, None) /\ recipe = None /\ D' = D \/
          exists t, upto c_semi (expand w) = (y, Some t) /\ recipe = Some (t ++ expand D) /\ D' = []
   end) ->
  upto c_colon y = (x, Some r) -> without_amp x group tx ->
  reads no_stop isblank (spaced xs ++ tx) names [] -> grouped (map clean names) ns -> Forall ordinary ns -> ns <> [] ->
  (if double then r = c_colon :: p else r = p /\ forall t, r <> c_colon :: t) ->
  (forall text over, ~ assigns (trim (p ++ D')) over text) -> (forall a b, D' <> a ++ s2l "\=" ++ b) ->
  (D' = [] \/ forall c t, p = c :: t -> isspace c = false) ->
  let (z, recipe') := match D', recipe with [], _ => (p, recipe) | _, Some t => (p ++ expand D', recipe) | _, None => upto c_semi (p ++ expand D') end in
  snd (upto c_colon z) = None ->
  read_rule expand tilde glob members posix (T ++ D ++ ending_text e) = Rule (mkrule ns group double None (of_text (strip z)) recipe').
Proof.
  intros expand tilde glob members posix T ws w D e xs y recipe D' x r group tx names ns double p WT WD NL NB LA NT SD F2 Y U AM RD GR OR NN DB NA NQ SF.
  assert (RR : read_rule expand tilde glob members posix (T ++ D ++ ending_text e) = ordinary_rule expand tilde glob members ns group double p D' recipe).
  { unfold read_rule, find_map_unquote. rewrite app_assoc.
    rewrite (cut_whole _ (T ++ D) eq_refl (whole_app _ _ WT WD)); [|lia|].
    2:{ intros c q H. destruct e as [|t|t]; cbn [ending_text] in H; [discriminate| |]; injection H as <- <-; (split; [reflexivity|]); rewrite app_nil_r; intros b q' E ->;
        apply (NB ltac:(discriminate) (rev q')); rewrite <- (rev_involutive (T ++ D)), E; reflexivity. }
    cbn [rev app f_before f_rest]. rewrite (collapse_nonl posix (T ++ D) NL).
    assert (SEMI : match hit_of (ending_text e) with Some (c :: r) => if c =?c c_hash then None else Some r | _ => None end = recipe_of e) by (destruct e; reflexivity).
    rewrite SEMI. clear SEMI.
    assert (CA : (tx, group) = cut_amp x).
    { unfold without_amp in AM. unfold cut_amp. destruct group.
      - subst x. change (s2l "&") with [c_amp]. rewrite rev_app_distr. cbn [rev app]. rewrite eqc_refl, rev_involutive. reflexivity.
      - destruct AM as [-> AM]. destruct (rev tx) as [|c b] eqn:RX; [reflexivity|]. destruct (c =?c c_amp) eqn:C; [|reflexivity]. apply eqc_true in C. subst c. exfalso.
        apply (AM (rev b)). rewrite <- (rev_involutive tx), RX. reflexivity. }
    assert (HIT : forall fuel pre, M_RuleLine.words expand (S fuel) pre (expand w) (recipe_of e) D = Some (inr (pre ++ tx, group, r, recipe, D'))).
    { intros fuel pre. rewrite (words_hit expand fuel pre (expand w) (recipe_of e) D y recipe D' x r); [rewrite <- CA; reflexivity| |exact U].
      destruct e; cbn [recipe_of]; [exact Y|exact Y|]. destruct Y as (-> & -> & ->). auto. }
    assert (NTB : forall a b, T = a ++ b -> blanks b -> b = []).
    { intros a b E B. destruct b as [|c b] using rev_ind; [reflexivity|]. exfalso. clear IHb. specialize (NT c (rev (a ++ b))). rewrite E, app_assoc, rev_app_distr in NT. specialize (NT eq_refl).
      rewrite (B c) in NT; [discriminate|apply in_or_app; right; left; reflexivity]. }
    assert (WD0 : exists v rest, get_next_mword (T ++ D) = (w_word, v, rest) /\ M_RuleLine.words expand (S (S (length rest))) [] (expand v) (recipe_of e) rest = Some (inr (spaced xs ++ tx, group, r, recipe, D'))).
    { inversion LA as [b B E1 E2|b v t vs B W NW SP LA' E1 E2]; [destruct ws; discriminate|]. rewrite <- !app_assoc.
      assert (OF : ok_follow v (t ++ D)).
      { destruct t as [|c q]; [|right; exists c, (q ++ D); split; [reflexivity|left; exact (SP c q eq_refl)]]. cbn [app]. destruct D as [|c q]; [left; reflexivity|]. right. exists c, q. split; [reflexivity|left; exact (SD c q eq_refl)]. }
      exists v, (t ++ D). split; [exact (next_word b v (t ++ D) B W NW OF)|].
      destruct ws as [|w0 ws]; cbn [app] in E2; injection E2 as E2 E3.
      - subst v vs. inversion F2; subst xs. inversion LA' as [b' B' E4 E5|]; subst. rewrite (NTB (b ++ w) t) by (rewrite ?app_assoc; auto). cbn [app]. rewrite HIT. reflexivity.
      - subst v vs. inversion F2 as [|? x0 ? xs' X0 F2' E4 E5]; subst xs.
        destruct (words_until expand t _ LA' ws w eq_refl (recipe_of e) xs' F2' D SD (S (length (t ++ D))) [] (expand w0) x0 X0 ltac:(lia)) as (fuel' & b' & B' & (a & EA) & Q).
        rewrite Q. rewrite (NTB (b ++ w0 ++ a) b'); [cbn [app]; rewrite HIT; reflexivity| |exact B']. rewrite <- E1, EA, <- !app_assoc. reflexivity. }
    destruct WD0 as (v & rest & -> & ->). rewrite (names_are tilde glob members _ names ns RD GR OR). destruct ns as [|n0 ns']; [congruence|].
    match goal with |- (let '(_, _) := ?m in _) = _ => assert (M : m = (double, p)) end.
    { destruct double; [subst r; reflexivity|]. destruct DB as [-> DB]. destruct p as [|c q]; [reflexivity|]. destruct (c =?c c_colon) eqn:C; [|reflexivity]. apply eqc_true in C. subst c. exfalso. exact (DB q eq_refl). }
    rewrite M. destruct (parse_var_assignment (p ++ D')) as [[u o]|] eqn:PV; [apply assignment_iff in PV; exfalso; exact (NA u o PV)|]. reflexivity. }
  rewrite RR. unfold ordinary_rule.
  assert (RC : f_before (find_char_unquote D' c_eq) ++ match f_rest (find_char_unquote D' c_eq) with Some r => r | None => [] end = D').
  { rewrite find_char_unquote_spec by discriminate. pose proof (unq_recombine c_eq D' ltac:(discriminate) 0 (or_introl eq_refl) NQ) as Q.
    destruct (unq (fun x => x =?c c_eq) 0 D') as [a q]. cbn [f_before f_rest]. exact Q. }
  rewrite RC. clear - SF.
  destruct D' as [|d D'].
  - rewrite app_nil_r. intros NC.
    assert (SPC : forall z, raw_colon 0 (next_token z) = raw_colon 0 z /\ strip_whitespace (next_token z) = strip z).
    { intros z. rewrite trim_next. destruct (trim_split z) as (sp & E & SP). split; [rewrite E at 2; rewrite raw_space by exact SP; reflexivity|]. unfold strip_whitespace, strip. rewrite !trim_next.
      assert (TT : next_token (next_token z) = next_token z) by (clear; induction z as [|c z IH]; [reflexivity|]; cbn [next_token]; destruct (isspace c) eqn:C; [exact IH|]; cbn [next_token]; rewrite C; reflexivity).
      assert (T2 : trim (trim z) = trim z) by (rewrite <- (trim_next (trim z)), <- (trim_next z); exact TT). rewrite (trim_next (trim z)), T2. reflexivity. }
    destruct (SPC p) as [S1 S2]. rewrite S1, S2, raw_upto, NC. reflexivity.
  - destruct SF as [SF|SF]; [discriminate|].
    assert (NX : firstn (length p) (next_token (p ++ d :: D')) = p /\ (length p <=? length (next_token (p ++ d :: D'))) = true).
    { destruct p as [|c q]; [split; reflexivity|]. cbn [app next_token]. rewrite (SF c q eq_refl). split; [|apply Nat.leb_le; cbn [length]; rewrite app_length; lia].
      change (c :: q ++ d :: D') with ((c :: q) ++ d :: D'). rewrite firstn_app, firstn_all, Nat.sub_diag. cbn [firstn]. apply app_nil_r. }
    destruct NX as [-> ->].
    destruct recipe as [t|].
    + intros NC. rewrite raw_upto, NC. unfold strip_whitespace. rewrite !trim_next. reflexivity.
    + destruct (find_upto c_semi (p ++ expand (d :: D')) ltac:(discriminate)) as (a & q & F & N1 & N2). rewrite F. cbn [f_rest f_before].
      destruct (upto c_semi (p ++ expand (d :: D'))) as [z [rc|]].
      * destruct (proj1 (N2 _ _) eq_refl) as [-> <-]. intros NC. rewrite raw_upto, NC. unfold strip_whitespace. rewrite !trim_next. reflexivity.
      * destruct (proj1 (N1 _) eq_refl) as [-> <-]. intros NC. rewrite raw_upto, NC. unfold strip_whitespace. rewrite !trim_next. reflexivity.
Qed.
Print Assumptions C62_expanded.

(** What is refused: a static pattern rule without a pattern, with more than one, or with one without a percent sign;
    ignored: a rule without targets. *)
Theorem C62_refused :
  forall expand tilde glob members posix, (forall s, ~ In c_dollar s -> expand s = s) ->
  (forall T group double D e ns, good_line T group double D e -> target_names expand T e ns ->
   (forall text over, ~ assigns (trim D) over text) -> (forall a b, D <> a ++ s2l "\=" ++ b) ->
   let (x, recipe) := match e with Recipe t => (expand D, Some t) | _ => upto c_semi (expand D) end in
   let result := read_rule expand tilde glob members posix (rule_line T group double D e) in
   forall ws p, reads (fun c => c =?c c_colon) isblank x ws (c_colon :: p) -> Forall (fun w => ~ In c_lparen w) ws ->
   match ws with
   | [] => result = No_pattern
   | [w] => snd (upto c_percent (clean w)) = None -> result = No_percent
   | _ => result = Many_patterns
   end) /\
  (forall b group D e, blanks b -> whole D -> ~ In c_nl D -> (e <> Nothing_more -> forall t, D <> t ++ [c_bslash]) -> (forall t, D <> c_eq :: t) -> (forall c t, D <> c_colon :: c :: c_eq :: t) ->
     read_rule expand tilde glob members posix (b ++ colon group ++ D ++ ending_text e) = No_targets) /\
  (forall T group double D e, good_line T group double D e -> line_names expand T e [] -> read_rule expand tilde glob members posix (rule_line T group double D e) = No_targets).
Proof.
  intros expand tilde glob members posix PL. split; [|split; [|intros T group double D e GL LN; exact (to_any expand tilde glob members posix PL T group double D e [] GL LN)]].
  - intros T group double D e ns GL TN NA NQ.
    pose proof (to_ordinary expand tilde glob members posix PL T group double D e ns GL TN) as RR.
    destruct (parse_var_assignment D) as [[u o]|] eqn:PV; [apply assignment_iff in PV; exfalso; exact (NA u o PV)|].
    cbv zeta. rewrite RR. unfold ordinary_rule. cbn [app length].
    assert (RC : f_before (find_char_unquote D c_eq) ++ match f_rest (find_char_unquote D c_eq) with Some r => r | None => [] end = D).
    { rewrite find_char_unquote_spec by discriminate. pose proof (unq_recombine c_eq D ltac:(discriminate) 0 (or_introl eq_refl) NQ) as U.
      destruct (unq (fun x => x =?c c_eq) 0 D) as [a r]. cbn [f_before f_rest]. exact U. }
    rewrite RC.
    assert (ED : expand [] = []) by (apply PL; intros []).
    set (xr := match e with Recipe t => (expand D, Some t) | _ => upto c_semi (expand D) end).
    match goal with |- context [if raw_colon 0 _ then _ else _] => idtac end.
    match goal with |- context [let '(p2, cmd) := ?m in if raw_colon 0 p2 then _ else _] => assert (EX : m = xr) end.
    { unfold xr. destruct D as [|d D']; [rewrite ED; destruct e; reflexivity|]. cbn [firstn app Nat.leb].
      assert (U : forall p2, (let f := find_char_unquote p2 c_semi in match f_rest f with Some (_ :: r) => (f_before f, Some r) | _ => (f_before f, None) end) = upto c_semi p2).
      { intros p2. cbv zeta. rewrite find_char_unquote_spec by discriminate. unfold upto. destruct (unq (fun x => x =?c c_semi) 0 p2) as [a [[|q r]|]]; reflexivity. }
      destruct e as [|t|t]; cbn [recipe_of]; [apply U|apply U|reflexivity]. }
    rewrite EX. clear EX. destruct xr as [x recipe]. intros ws p R NP.
    assert (RW : raw_colon 0 x = true) by (rewrite (reads_raw isblank x ws (c_colon :: p)); [reflexivity|auto|exact R]). rewrite RW.
    destruct (C58_names (fun c => c =?c c_colon) false false false true false false None tilde glob members x ws (c_colon :: p)) as (ns' & G & E).
    + split; [reflexivity|]. intros c H. destruct (c =?c c_colon) eqn:Q; [apply eqc_true in Q; subst c; discriminate|reflexivity].
    + exact R.
    + right. exact NP.
    + assert (NC : Forall (fun w => ~ In c_lparen w) (map clean ws)) by (apply Forall_map; apply Forall_forall; intros w I J; rewrite Forall_forall in NP; exact (NP w I (clean_paren w J))).
      cbn beta iota in G. rewrite (grouped_unique _ _ G _ (grouped_none _ NC)) in E. rewrite E by (left; reflexivity). rewrite map_id.
      destruct ws as [|w [|w2 ws]]; cbn [map]; [reflexivity| |reflexivity]. intros UP. rewrite find_percent_cached_eq. unfold find_percent.
      destruct (find_upto c_percent (clean w) ltac:(discriminate)) as (a' & r' & F & N & Y). rewrite F. cbn [f_rest].
      destruct (upto c_percent (clean w)) as [a [b|]]; [discriminate|]. destruct (proj1 (N a) eq_refl) as [-> _]. reflexivity.
  - intros b group D e B WD NL NB N1 N2. unfold read_rule, find_map_unquote.
    replace (b ++ colon group ++ D ++ ending_text e) with ((b ++ colon group ++ D) ++ ending_text e) by (rewrite <- !app_assoc; reflexivity).
    assert (WB : whole (b ++ colon group ++ D)).
    { apply whole_app; [apply whole_plain; intros c I X; apply B in I; destruct (blank_chars c I) as [-> | ->]; cbn in X; intuition discriminate|]. apply whole_app; [|exact WD].
      destruct group; repeat (apply wh_char; [cbn; intuition discriminate|]); constructor. }
    rewrite (cut_whole _ _ eq_refl WB); [|lia|].
    2:{ intros c q H. destruct e as [|t|t]; cbn [ending_text] in H; [discriminate| |]; injection H as <- <-; (split; [reflexivity|]); rewrite app_nil_r; intros z q' E ->;
        (assert (EE : b ++ colon group ++ D = rev q' ++ [c_bslash]) by (rewrite <- (rev_involutive (b ++ colon group ++ D)), E; reflexivity));
        (destruct D as [|d D'] using rev_ind;
          [rewrite app_nil_r in EE; (destruct group; [change (colon true) with ([c_amp] ++ [c_colon]) in EE; rewrite app_assoc in EE|]); apply app_inj_tail in EE; destruct EE as [_ EE]; discriminate
          |rewrite !app_assoc in EE; apply app_inj_tail in EE; destruct EE as [_ ->]; exact (NB ltac:(discriminate) _ eq_refl)]). }
    cbn [rev app f_before f_rest].
    assert (NLB : ~ In c_nl (b ++ colon group ++ D)).
    { intros I. apply in_app_or in I. destruct I as [I|I]; [apply B in I; discriminate|]. apply in_app_or in I. destruct I as [I|I]; [destruct group; cbn in I; intuition discriminate|exact (NL I)]. }
    rewrite (collapse_nonl posix _ NLB).
    assert (GM : exists u v, get_next_mword (b ++ colon group ++ D) = (w_rule, u, v)).
    { unfold get_next_mword. rewrite skip_blank_app by exact B. destruct group; cbn [colon s2l list_ascii_of_string app skip_blank].
      - change (isblank "&"%char) with false. cbv iota. change (("&"%char =?c c_semi) || ("&"%char =?c c_eq)) with false. change ("&"%char =?c c_colon) with false. change ("&"%char =?c c_amp) with true. change (":"%char =?c c_colon) with true. cbv iota.
        destruct D as [|d D']; [eexists; eexists; reflexivity|]. destruct (d =?c c_colon); eexists; eexists; reflexivity.
      - change (isblank ":"%char) with false. cbv iota. change ((":"%char =?c c_semi) || (":"%char =?c c_eq)) with false. change (":"%char =?c c_colon) with true. cbv iota.
        destruct D as [|d D']; [eexists; eexists; reflexivity|]. destruct (d =?c c_eq) eqn:E; [apply eqc_true in E; subst d; exfalso; exact (N1 D' eq_refl)|].
        destruct (d =?c c_colon) eqn:E2; [|eexists; eexists; reflexivity]. apply eqc_true in E2. subst d.
        destruct D' as [|e1 [|f1 D'']]; [eexists; eexists; reflexivity|eexists; eexists; reflexivity|]. destruct (f1 =?c c_eq) eqn:E3; [apply eqc_true in E3; subst f1; exfalso; exact (N2 e1 D'' eq_refl)|eexists; eexists; reflexivity]. }
    destruct GM as (u & v & ->). reflexivity.
Qed.
Print Assumptions C62_refused.

(** Names with blanks and colons quoted by backslashes are the targets. *)
Definition target_name (n : str) : Prop :=
  writable n /\ clean n = n /\ ordinary n /\ (forall c, In c n -> ~ In c (c_tab :: c_nl :: s2l "=;$#")) /\ forall l, n <> l ++ [c_sp].
Definition colon_or_blank (c : ascii) : bool := (c =?c c_colon) || isblank c.
Theorem C62_quoted :
  forall expand tilde glob members posix, (forall s, ~ In c_dollar s -> expand s = s) ->
  forall ns group double D e, ns <> [] -> Forall target_name ns -> whole D -> ~ In c_nl D -> ~ In c_nl (ending_text e) ->
  (forall c, In c D -> ~ In c (s2l "$\:")) -> (forall text over, ~ assigns (trim D) over text) ->
  read_rule expand tilde glob members posix (rule_line (written colon_or_blank ns) group double D e) =
    Rule (mkrule ns group double None (of_text (strip D)) (recipe_of e)).
Proof.
  intros expand tilde glob members posix PL ns group double D e NE F WD ND NX CD NA.
  assert (WE : written colon_or_blank ns = flat_map (fun n => quote_aux (fun n => 2 * n) seps 0 n ++ [c_sp]) ns) by reflexivity.
  assert (IN : forall c, In c (written colon_or_blank ns) -> ~ In c (c_tab :: c_nl :: s2l "=;$#")).
  { intros c I. rewrite WE in I. apply in_flat_map in I. destruct I as (n & I1 & I2). rewrite Forall_forall in F. destruct (F n I1) as (_ & _ & _ & Q & _).
    apply in_app_or in I2. destruct I2 as [I2|[<- |[]]]; [|cbn; intuition discriminate]. apply quote_in in I2. destruct I2 as [-> |I2]; [cbn; intuition discriminate|exact (Q c I2)]. }
  assert (TI : tidy (written colon_or_blank ns)).
  { rewrite WE. clear WE IN NE. induction F as [|n ns (W & _ & _ & Q & L) F IH]; [constructor|]. cbn [flat_map]. rewrite <- app_assoc. cbn [app].
    apply (tidy_quote n 0 [] _); [intros []| |intros ->; destruct W as [[] _]|exact L|exact IH]. intros I. apply (Q _ I). left. reflexivity. }
  assert (UQ : unq col 0 (written colon_or_blank ns) = (written isblank ns, None)).
  { rewrite WE. clear. induction ns as [|n ns IH]; [reflexivity|]. cbn [flat_map written]. rewrite <- !app_assoc. cbn [app]. rewrite unq_quote, IH. reflexivity. }
  destruct (tidy_layout (written colon_or_blank ns) TI) as (ws & xs & LA & F2 & SX & NW).
  { intros c I. specialize (IN c I). split; [intros ->; apply IN; left; reflexivity|intros X; apply IN; cbn in X |- *; tauto]. }
  { rewrite UQ. reflexivity. }
  assert (NWT : written colon_or_blank ns <> []) by (rewrite WE; destruct ns as [|n ns]; [congruence|]; cbn [flat_map]; destruct (quote_aux (fun n0 : nat => 2 * n0) seps 0 n); discriminate).
  assert (GL : good_line (written colon_or_blank ns) group double D e).
  { split; [|split; [|split; [|split; [|split; [|split]]]]].
    - apply whole_plain. intros c I X. apply (IN c I). cbn in X |- *. tauto.
    - exact WD.
    - intros c r E. rewrite WE in E. destruct (exists_last NE) as (l & n & ->). rewrite flat_map_app in E. cbn [flat_map] in E. rewrite app_nil_r, !rev_app_distr in E. cbn [rev app] in E. injection E as <- _. split; discriminate.
    - unfold rule_line. intros I. apply in_app_or in I. destruct I as [I|I]; [apply (IN _ I); right; left; reflexivity|].
      apply in_app_or in I. destruct I as [I|I]; [destruct group; cbn in I; intuition discriminate|]. apply in_app_or in I. destruct I as [I|I]; [destruct double; cbn in I; intuition discriminate|].
      apply in_app_or in I. destruct I as [I|I]; [exact (ND I)|exact (NX I)].
    - intros _ t ->. apply (CD c_bslash); [apply in_or_app; right; left; reflexivity|cbn; tauto].
    - intros _ t ->. apply (CD c_colon); [left; reflexivity|cbn; tauto].
    - intros _ t ->. apply (CD c_dollar); [left; reflexivity|cbn; tauto]. }
  assert (TN : target_names expand (written colon_or_blank ns) e ns).
  { split; [|exact NE]. exists ws, xs, ns. split; [exact LA|]. split; [exact (NW NWT)|]. split; [|split; [|split]].
    - clear - F2 PL. induction F2 as [|w x ws xs (H1 & H2 & H3) F2 IH]; constructor; [|exact IH]. rewrite (PL w H1). exists w. split; [|exact H3].
      destruct e; cbn [recipe_of]; [apply upto_none; [discriminate|exact H2]|apply upto_none; [discriminate|exact H2]|reflexivity].
    - rewrite SX, UQ. cbn [fst]. pose proof (reads_written no_stop ns [] (conj eq_refl (fun _ _ => eq_refl))) as R. rewrite app_nil_r in R. apply R; [|left; reflexivity].
      rewrite Forall_forall in *. intros n I. destruct (F n I) as (W & _). exact W.
    - assert (M : map clean ns = ns) by (clear - F; induction F as [|n ns (_ & C & _) F IH]; [reflexivity|]; cbn [map]; rewrite C, IH; reflexivity).
      rewrite M. apply grouped_none. rewrite Forall_forall in *. intros n I. destruct (F n I) as ((_ & W) & _). exact W.
    - rewrite Forall_forall in *. intros n I. destruct (F n I) as (_ & _ & O & _). exact O. }
  assert (DD : ~ In c_dollar D) by (intros I; apply (CD _ I); cbn; tauto).
  assert (DC : ~ In c_colon D) by (intros I; apply (CD _ I); cbn; tauto).
  assert (DS : ~ In c_semi D).
  { clear - WD DD. induction WD as [|c t H W IH|d t H1 H2 W IH|op cl b t Br N W IH]; [intros []| | |].
    - intros [-> |I]; [apply H; cbn; tauto|]. apply IH; [intros X; apply DD; right; exact X|exact I].
    - exfalso. apply DD. left. reflexivity.
    - exfalso. apply DD. left. reflexivity. }
  destruct (C62_rule expand tilde glob members posix PL _ group double D e ns GL TN) as [_ R].
  specialize (R NA). cbv zeta in R. rewrite (PL D DD) in R.
  match type of R with _ -> let (_, _) := ?m in _ => assert (X : m = (D, recipe_of e)) end.
  { destruct e; cbn [recipe_of]; [apply upto_none; [discriminate|exact DS]|apply upto_none; [discriminate|exact DS]|reflexivity]. }
  rewrite X in R. apply R.
  - intros a b ->. apply (CD c_bslash); [apply in_or_app; right; left; reflexivity|cbn; tauto].
  - rewrite upto_none; [reflexivity|discriminate|exact DC].
Qed.
Print Assumptions C62_quoted.

(** No colon: the line is refused unless the words expand to nothing; a lone recipe is refused, too. *)
Theorem C62_no_colon :
  forall expand tilde glob members posix T e ws xs,
  whole T -> ~ In c_nl T -> (e <> Nothing_more -> forall t, T <> t ++ [c_bslash]) -> layout T ws ->
  Forall2 (fun w x => target_text (recipe_of e) (expand w) x) ws xs ->
  read_rule expand tilde glob members posix (T ++ ending_text e) =
    match ws with
    | [] => match e with Recipe _ => No_rule | _ => Nothing end
    | _ => match trim (spaced xs) with [] => Nothing | _ => No_separator end
    end.
Proof.
  intros expand tilde glob members posix T e ws xs WT NL NB LA F2. unfold read_rule, find_map_unquote.
  rewrite (cut_whole _ T eq_refl WT); [|lia|].
  2:{ intros c r H. destruct e as [|t|t]; cbn [ending_text] in H; [discriminate| |]; injection H as <- <-; (split; [reflexivity|]); rewrite app_nil_r; intros b q E ->;
      apply (NB ltac:(discriminate) (rev q)); rewrite <- (rev_involutive T), E; reflexivity. }
  cbn [rev app f_before f_rest]. rewrite (collapse_nonl posix T NL).
  assert (SEMI : match hit_of (ending_text e) with Some (c :: r) => if c =?c c_hash then None else Some r | _ => None end = recipe_of e) by (destruct e; reflexivity).
  rewrite SEMI. inversion LA as [b B|b w t ws' B W NW SP LA' E1 E2]; subst.
  - assert (GN : get_next_mword T = (w_eol, [], [])) by (unfold get_next_mword; rewrite <- (app_nil_r T), skip_blank_app by exact B; reflexivity). rewrite GN. destruct e; reflexivity.
  - inversion F2 as [|? x ? xs' X F2' E1 E2]; subst.
    assert (OF : ok_follow w t) by (destruct t as [|c r]; [left; reflexivity|right; exists c, r; split; [reflexivity|left; exact (SP c r eq_refl)]]).
    rewrite (next_word b w t B W NW OF).
    destruct (words_layout expand t ws' LA' (recipe_of e) xs' F2' []) with (fuel := S (length t)) (pre := @nil ascii) (p2 := expand w) (x := x) as (fuel' & _ & EW); [left; reflexivity|exact X|rewrite app_nil_r; lia|].
    rewrite app_nil_r in EW. rewrite EW. change (get_next_mword []) with (w_eol, @nil ascii, @nil ascii). cbv iota. cbn [app].
    clear. assert (S0 : exists y, spaced (x :: xs') = y ++ [c_sp]).
    { destruct (@exists_last _ (x :: xs') ltac:(discriminate)) as (l & z & ->). unfold spaced. rewrite flat_map_app. cbn [flat_map]. rewrite app_nil_r, app_assoc. eexists. reflexivity. }
    destruct S0 as (y & ->). rewrite removelast_last, <- (trim_next (y ++ [c_sp])). clear. induction y as [|c y IH]; [reflexivity|]. cbn [app next_token]. destruct (isspace c); [exact IH|reflexivity].
Qed.
Print Assumptions C62_no_colon.

(** Whatever expansion and the file system say, no text is read past its end. *)
Theorem C62_safe :
  forall expand tilde glob members posix line, let result := read_rule expand tilde glob members posix line in result <> Past_end /\ result <> No_fuel.
Proof.
  intros expand tilde glob members posix line result. unfold result, read_rule.
  assert (FM : exists f, find_map_unquote (fun c => (c =?c c_semi) || (c =?c c_hash)) true line = Some f).
  { unfold find_map_unquote. apply map_loop_some. lia. }
  destruct FM as (f & ->). set (semi := match f_rest f with Some (c :: r) => if c =?c c_hash then None else Some r | _ => None end).
  destruct (get_next_mword (collapse_continuations posix (f_before f))) as [[ty w] rest] eqn:GN.
  assert (G : forall x res, M_RuleLine.words expand (S (S (length rest))) [] (expand w) semi rest = x ->
    match x with
            | None => No_fuel
            | Some (inl buf) => match next_token buf with [] => Nothing | _ => No_separator end
            | Some (inr (buf, group, p2, cmd, rest)) =>
                match parse_file_seq no_stop false false false false false false None tilde glob members buf with
                | Names [] _ => No_targets
                | Names ts _ =>
                    let '(double, p2) := match p2 with c :: p2' => if c =?c c_colon then (true, p2') else (false, p2) | [] => (false, p2) end in
                    match parse_var_assignment (p2 ++ rest) with
                    | Some (text, over) => Assign ts (text ++ match semi with Some s => collapse_continuations posix (c_semi :: s) | None => [] end) over
                    | None => ordinary_rule expand tilde glob members ts group double p2 rest cmd
                    end
                | _ => Glob
                end
            end = res -> res <> Past_end /\ res <> No_fuel).
  { clear result. intros x res EX <-. destruct x as [[buf|[[[[buf group] p2] cmd] rest']]|].
    - destruct (next_token buf); split; discriminate.
    - destruct (parse_file_seq no_stop false false false false false false None tilde glob members buf) as [ts r| | |]; [|split; discriminate..]. destruct ts as [|t ts]; [split; discriminate|].
      match goal with |- context [let '(_, _) := ?m in _] => destruct m as [double p2'] end.
      destruct (parse_var_assignment (p2' ++ rest')) as [[text over]|]; [split; discriminate|].
      unfold ordinary_rule. match goal with |- context [let '(_, _) := ?m in _] => destruct m as [p3 cmd'] end.
      destruct (raw_colon 0 p3) eqn:RC; [|split; discriminate].
      destruct (parse_file_seq (fun c => c =?c c_colon) false false false true false false None tilde glob members p3) as [l r'| | |] eqn:PS; [|split; discriminate..].
      unfold parse_file_seq in PS. destruct (seq_reads (fun c => c =?c c_colon) false false false true false false None tilde glob members eq_refl _ _ _ _ _ _ PS) as (ws & R).
      pose proof (reads_raw _ p3 ws r' (fun c H => H) R) as Q. rewrite RC in Q. destruct r' as [|c0 r']; [discriminate|].
      destruct l as [|n [|n2 l]]; [split; discriminate| |split; discriminate]. rewrite find_percent_cached_eq. destruct (f_rest (find_percent n)); split; discriminate.
    - exfalso. revert EX. apply words_fuel. lia. }
  destruct ty; [destruct semi; split; discriminate|exact (G _ _ eq_refl eq_refl)|exact (G _ _ eq_refl eq_refl)|split; discriminate].
Qed.
Print Assumptions C62_safe.

(** ** Where the line is not read as its words say *)
Definition plain (s : str) : str := s.
Definition read := read_rule plain (fun _ => None) (fun _ => GNoMatch) (fun _ _ => []) false.
Definition a_rule ts deps recipe := Rule (mkrule ts false false None deps recipe).

(** One backslash before a semicolon quotes it only if another semicolon follows. *)
Theorem C62_semicolon_refuted :
  exists n tail, read (s2l "a: " ++ n ++ tail) = a_rule [s2l "a"] (Some (s2l "b;c")) (Some (s2l " d")) /\ tail <> [] /\
    read (s2l "a: " ++ n) = a_rule [s2l "a"] (Some (s2l "b")) (Some (s2l "c")) /\
    read (n ++ s2l ": a") = No_separator.
Proof. exists (s2l "b\;c"), (s2l " ; d"). split; [vm_compute; reflexivity|]. split; [discriminate|]. split; vm_compute; reflexivity. Qed.
Print Assumptions C62_semicolon_refuted.

(** A quoted blank at the end of a target eats the blank behind it, and a quoted tab is read as a space. *)
Theorem C62_blank_refuted :
  read (s2l "a\  b: c") = a_rule [s2l "a b"] (Some (s2l "c")) None /\
  parse_file_seq no_stop false false false false false false None (fun _ => None) (fun _ => GNoMatch) (fun _ _ => []) (s2l "a\  b") = Names [s2l "a "; s2l "b"] [] /\
  read (s2l "a\" ++ c_tab :: s2l "b: c") = a_rule [s2l "a b"] (Some (s2l "c")) None.
Proof. split; [|split]; vm_compute; reflexivity. Qed.
Print Assumptions C62_blank_refuted.

(** An equals sign splits a target into three; as a prerequisite it is one name. *)
Theorem C62_equals_refuted :
  read (s2l "x b=c y: d") = a_rule [s2l "x"; s2l "b"; s2l "="; s2l "c"; s2l "y"] (Some (s2l "d")) None /\
  read (s2l "x b\=c y: d") = a_rule [s2l "x"; s2l "b\=c"; s2l "y"] (Some (s2l "d")) None.
Proof. split; vm_compute; reflexivity. Qed.
Print Assumptions C62_equals_refuted.

(** A quoted colon loses its backslash in a target but not in a prerequisite: the rule for the same text is another file's. *)
Theorem C62_colon_refuted :
  exists n x y, read (n ++ s2l ": c") = a_rule [x] (Some (s2l "c")) None /\ read (s2l "a: " ++ n) = a_rule [s2l "a"] (Some y) None /\
    split_prereqs (fun _ => None) (fun _ => GNoMatch) (fun _ _ => []) y = Some ([y], []) /\ x <> y.
Proof. exists (s2l "b\:c"), (s2l "b:c"), (s2l "b\:c"). split; [|split; [|split]]; [vm_compute; reflexivity..|discriminate]. Qed.
Print Assumptions C62_colon_refuted.

(** A colon that comes from a variable with blanks behind it: the expansion of the rest of the line is put too far behind. *)
Definition expand_r (v : str) (s : str) : str := if str_eqb s "$R" then v else if str_eqb s " $(Y)" then s2l " y" else s.
Definition read_r v := read_rule (expand_r v) (fun _ => None) (fun _ => GNoMatch) (fun _ _ => []) false.
Theorem C62_shift_refuted :
  read_r (s2l "a: x") (s2l "$R bc") = a_rule [s2l "a"] (Some (s2l "x  bc")) None /\
  read_r (s2l "a:  x") (s2l "$R bc") = a_rule [s2l "a"] (Some (s2l "x b bc")) None /\
  read_r (s2l "a:") (s2l "$R $(Y)") = a_rule [s2l "a"] (Some (s2l "y")) None /\
  read_r (s2l "a: ") (s2l "$R $(Y)") = a_rule [s2l "a"] (Some (s2l "$ y")) None.
Proof. split; [|split; [|split]]; vm_compute; reflexivity. Qed.
Print Assumptions C62_shift_refuted.

(** A comment behind a semicolon is part of the value of a target-specific variable. *)
Theorem C62_comment_refuted :
  read (s2l "a: x = 1 # c") = Assign [s2l "a"] (s2l "x = 1 ") false /\
  read (s2l "a: x = 1;2 # c") = Assign [s2l "a"] (s2l "x = 1;2 # c") false.
Proof. split; vm_compute; reflexivity. Qed.
Print Assumptions C62_comment_refuted.

(** ** Examples *)
Definition expand_x (s : str) : str := if str_eqb s "$(X)" then s2l "p q" else s.
Example expand_x_plain : forall s, ~ In c_dollar s -> expand_x s = s.
Proof. intros s H. unfold expand_x. destruct (str_eqb s "$(X)") eqn:E; [|reflexivity]. apply str_eqb_eq in E. subst s. exfalso. apply H. left. reflexivity. Qed.
Definition T_ex : str := s2l "$(X) y\:z ".
Ltac chars := repeat (apply wh_char; [cbn; intuition discriminate|]); try apply wh_nil.
Example targets_ex e : target_names expand_x T_ex e [s2l "p"; s2l "q"; s2l "y:z"].
Proof.
  split; [|discriminate]. exists [s2l "$(X)"; s2l "y\:z"], [s2l "p q"; s2l "y:z"], [s2l "p"; s2l "q"; s2l "y:z"]. split; [|split; [discriminate|split; [|split; [|split]]]].
  - change T_ex with ([] ++ s2l "$(X)" ++ [c_sp] ++ s2l "y\:z" ++ [c_sp]).
    apply la_word; [intros c []| |discriminate|intros c r E; injection E as <- _; reflexivity|].
    + change (s2l "$(X)") with (c_dollar :: c_lparen :: s2l "X" ++ c_rparen :: []). apply wo_long; [left; split; reflexivity| |constructor]. apply ne_char; [discriminate|discriminate|constructor].
    + apply la_word; [intros c [<- |[]]; reflexivity| |discriminate|intros c r E; injection E as <- _; reflexivity|].
      * apply wo_char; [reflexivity|cbn; intuition discriminate|]. apply wo_quoted; [cbn; tauto|]. apply wo_char; [reflexivity|cbn; intuition discriminate|constructor].
      * apply la_end. intros c [<- |[]]. reflexivity.
  - constructor; [|constructor; [|constructor]].
    + exists (s2l "p q"). split; [|reflexivity]. destruct e; reflexivity.
    + exists (s2l "y\:z"). split; [|reflexivity]. destruct e; reflexivity.
  - eapply r_word; [vm_compute; reflexivity|reflexivity|vm_compute; reflexivity|]. eapply r_word; [vm_compute; reflexivity|reflexivity|vm_compute; reflexivity|].
    eapply r_word; [vm_compute; reflexivity|reflexivity|vm_compute; reflexivity|]. apply r_end. reflexivity.
  - change (map clean [s2l "p"; s2l "q"; s2l "y:z"]) with [s2l "p"; s2l "q"; s2l "y:z"]. apply grouped_none. repeat constructor; cbn; intuition discriminate.
  - assert (G : forall n, existsb (fun c => (c =?c "?") || (c =?c "*") || (c =?c "[") || (c =?c "~") || (c =?c "(")) n = false -> ordinary n).
    { intros n H. assert (A : forall c, In c n -> (c =?c "?") || (c =?c "*") || (c =?c "[") || (c =?c "~") || (c =?c "(") = false).
      { intros c I. destruct ((c =?c "?") || (c =?c "*") || (c =?c "[") || (c =?c "~") || (c =?c "(")) eqn:E; [|reflexivity]. exfalso. assert (X : existsb (fun c => (c =?c "?") || (c =?c "*") || (c =?c "[") || (c =?c "~") || (c =?c "(")) n = true) by (apply existsb_exists; exists c; auto). congruence. }
      split; [|split].
      - intros c I. specialize (A c I). split; [|split]; intros ->; discriminate.
      - intros r ->. specialize (A _ (or_introl eq_refl)). discriminate.
      - intros (a & b & ->). specialize (A "("%char). cbn in A. discriminate A. apply in_or_app. right. left. reflexivity. }
    constructor; [apply G; reflexivity|]. constructor; [apply G; reflexivity|]. constructor; [apply G; reflexivity|constructor].
Qed.
Example line_ex : good_line T_ex true true (s2l " %.o: %.c w") (Recipe (s2l "cc")).
Proof.
  split; [|split; [|split; [|split; [|split; [|split]]]]].
  - change T_ex with (c_dollar :: c_lparen :: s2l "X" ++ c_rparen :: s2l " y\:z "). apply wh_long; [left; split; reflexivity|apply ne_char; [discriminate|discriminate|constructor]|chars].
  - chars.
  - intros c r E. injection E as <- _. split; discriminate.
  - cbn. intuition discriminate.
  - intros _ t E. apply (f_equal (@rev ascii)) in E. rewrite rev_app_distr in E. discriminate.
  - discriminate.
  - discriminate.
Qed.
Example C62_rule_ex posix :
  rule_line T_ex true true (s2l " %.o: %.c w") (Recipe (s2l "cc")) = s2l "$(X) y\:z &:: %.o: %.c w;cc" /\
  read_rule expand_x (fun _ => None) (fun _ => GNoMatch) (fun _ _ => []) posix (s2l "$(X) y\:z &:: %.o: %.c w;cc") =
    Rule (mkrule [s2l "p"; s2l "q"; s2l "y:z"] true true (Some (s2l "%.o")) (Some (s2l "%.c w")) (Some (s2l "cc"))).
Proof.
  split; [reflexivity|].
  destruct (C62_rule expand_x (fun _ => None) (fun _ => GNoMatch) (fun _ _ => []) posix expand_x_plain _ _ _ _ _ _ line_ex (targets_ex _)) as [_ R].
  assert (NA : forall text over, ~ assigns (trim (s2l " %.o: %.c w")) over text) by (intros text over A; apply assignment_iff in A; vm_compute in A; discriminate).
  assert (NQ : forall a b, s2l " %.o: %.c w" <> a ++ s2l "\=" ++ b).
  { intros a b E. assert (I : In c_bslash (s2l " %.o: %.c w")) by (rewrite E; apply in_or_app; right; left; reflexivity). cbn in I. intuition discriminate. }
  specialize (R NA NQ). cbv zeta beta iota in R. destruct R as [_ R]. refine (R (s2l "%.o") (s2l " %.c w") [] (s2l ".o") _ _ eq_refl).
  - eapply r_word; [vm_compute; reflexivity|reflexivity|vm_compute; reflexivity|]. eapply r_stop; [vm_compute; reflexivity|reflexivity].
  - cbn. intuition discriminate.
Qed.
Example C62_assign_ex :
  assigns (trim (s2l " private override V := 1")) true (s2l "V := 1") /\
  read (s2l "a b: private override V := 1;2") = Assign [s2l "a"; s2l "b"] (s2l "V := 1;2") true.
Proof. split; [apply assignment_iff; vm_compute; reflexivity|vm_compute; reflexivity]. Qed.
Example C62_quoted_ex :
  written colon_or_blank [s2l "a b"; s2l "C:x"; s2l "e\"] = s2l "a\ b C\:x e\\ " /\
  read (s2l "a\ b C\:x e\\ : d;x") = a_rule [s2l "a b"; s2l "C:x"; s2l "e\"] (Some (s2l "d")) (Some (s2l "x")).
Proof. split; vm_compute; reflexivity. Qed.
Example C62_no_colon_ex : read (s2l "a b c") = No_separator /\ read (s2l " ") = Nothing /\ read (s2l " ;x") = No_rule.
Proof. split; [|split]; vm_compute; reflexivity. Qed.
Example C62_expanded_ex : read_r (s2l "a&:x") (s2l "$R d") = Rule (mkrule [s2l "a"] true false None (Some (s2l "x d")) None).
Proof.
  refine (C62_expanded (expand_r (s2l "a&:x")) (fun _ => None) (fun _ => GNoMatch) (fun _ _ => []) false (s2l "$R") [] (s2l "$R") (s2l " d") Nothing_more [] (s2l "a&:x") None (s2l " d")
    (s2l "a&") (s2l "x") true (s2l "a") [s2l "a"] [s2l "a"] false (s2l "x") _ _ _ _ _ _ _ _ _ _ _ _ _ _ _ _ _ _ _ _).
  - apply wh_short; [discriminate|discriminate|constructor].
  - chars.
  - cbn. intuition discriminate.
  - congruence.
  - change (s2l "$R") with ([] ++ s2l "$R" ++ []). apply la_word; [intros c []| |discriminate|discriminate|apply la_end; intros c []]. apply wo_short; [discriminate|discriminate|constructor].
  - intros c t E. injection E as <- _. reflexivity.
  - intros c t E. injection E as <- _. reflexivity.
  - constructor.
  - left. split; [reflexivity|split; reflexivity].
  - reflexivity.
  - reflexivity.
  - eapply r_word; [vm_compute; reflexivity|reflexivity|vm_compute; reflexivity|]. apply r_end. reflexivity.
  - apply grouped_none. constructor; [cbn; intuition discriminate|constructor].
  - constructor; [|constructor]. split; [|split].
    + intros c [<- |[]]. split; [|split]; discriminate.
    + discriminate.
    + intros (a & b & E). destruct a as [|x [|y a]]; discriminate.
  - discriminate.
  - split; [reflexivity|discriminate].
  - intros text over A. apply assignment_iff in A. vm_compute in A. discriminate.
  - intros a b E. assert (I : In c_bslash (s2l " d")) by (rewrite E; apply in_or_app; right; left; reflexivity). cbn in I. intuition discriminate.
  - right. intros c t E. injection E as <- _. reflexivity.
  - reflexivity.
Qed.
Example C62_refused_ex :
  read (s2l "a: : x") = No_pattern /\ read (s2l "a: %.o %.p: x") = Many_patterns /\ read (s2l "a: b: x") = No_percent /\ read (s2l "  &:: x ; y") = No_targets.
Proof. split; [|split; [|split]]; vm_compute; reflexivity. Qed.
Example C62_empty_ex : line_names (expand_r []) (s2l "$R") Nothing_more [] /\ read_r [] (s2l "$R: d") = No_targets.
Proof.
  split; [|vm_compute; reflexivity]. exists [s2l "$R"], [[]], []. split; [|split; [discriminate|split; [|split; [|split]]]].
  - change (s2l "$R") with ([] ++ s2l "$R" ++ []). apply la_word; [intros c []| |discriminate|discriminate|apply la_end; intros c []]. apply wo_short; [discriminate|discriminate|constructor].
  - constructor; [|constructor]. exists []. split; reflexivity.
  - apply r_end. reflexivity.
  - constructor.
  - constructor.
Qed.
