(** C58: lists of file names. *)
From Verif Require Import Base M_Text M_Quote M_Implicit M_Seq S_Quote P_Quote S_Seq P_Seq.
Open Scope string_scope.
Open Scope list_scope.
Open Scope nat_scope.

(** The stop characters make uses: none, or any set without white space and backslash. *)
Definition good_stop (stop : ascii -> bool) : Prop :=
  stop c_bslash = false /\ forall c, isspace c = true -> stop c = false.
(** No stop character directly behind a backslash. *)
Definition no_quoted_stop (stop : ascii -> bool) (s : str) : Prop := forall a x b, s = a ++ c_bslash :: x :: b -> stop x = false.
Definition sep (oneword : bool) (c : ascii) : bool := negb oneword && isblank c.
Definition pre (prefix : option str) (n : str) : str := match prefix with Some p => p ++ n | None => n end.
(** Nothing for the file system to say. *)
Definition ordinary (n : str) : Prop :=
  (forall c, In c n -> c <> "?"%char /\ c <> "*"%char /\ c <> "["%char) /\ (forall r, n <> "~"%char :: r) /\
  ~ exists a b, n = a ++ s2l "((" ++ b ++ s2l "))".

Lemma with_prefix_pre prefix n : with_prefix prefix n = pre prefix n. Proof. reflexivity. Qed.
Lemma no_pattern n : ordinary n -> existsb (fun c => (c =?c "?") || (c =?c "*") || (c =?c "[")) n = false.
Proof.
  intros (A & _). induction n as [|c n IH]; [reflexivity|]. cbn [existsb]. destruct (A c (or_introl eq_refl)) as (B & C & D).
  rewrite (proj2 (Ascii.eqb_neq c "?"%char) B), (proj2 (Ascii.eqb_neq c "*"%char) C), (proj2 (Ascii.eqb_neq c "["%char) D). cbn [orb]. apply IH. intros x I. apply A. right. exact I.
Qed.
Lemma no_ar_pattern n : (forall c, In c n -> c <> "?"%char /\ c <> "*"%char /\ c <> "["%char) -> ar_pattern false n = false.
Proof.
  assert (G : forall k n, length n <= k -> (forall c, In c n -> c <> "?"%char /\ c <> "*"%char /\ c <> "["%char) -> ar_pattern false n = false); [|intros H; exact (G _ n (le_n _) H)].
  clear n. induction k as [|k IH]; intros n L A; (destruct n as [|c n]; [reflexivity|]); [cbn in L; lia|]. cbn [ar_pattern]. destruct (A c (or_introl eq_refl)) as (B & C & D).
  rewrite (proj2 (Ascii.eqb_neq c "?"%char) B), (proj2 (Ascii.eqb_neq c "*"%char) C), (proj2 (Ascii.eqb_neq c "["%char) D), andb_false_r. cbn [orb].
  cbn [length] in L. destruct (c =?c c_bslash).
  - destruct n as [|d n]; [reflexivity|]. cbn [length] in L. apply IH; [lia|]. intros x I. apply A. right. right. exact I.
  - apply IH; [lia|]. intros x I. apply A. right. exact I.
Qed.
Lemma from_at n m : from_paren n = Some m -> exists a, at_paren n = Some (a, m).
Proof.
  revert m. induction n as [|c n IH]; intros m H; cbn [from_paren at_paren] in *; [discriminate|]. destruct (c =?c c_lparen); [injection H as ->; exists []; reflexivity|].
  destruct (IH m H) as (a & E). rewrite E. exists (c :: a). reflexivity.
Qed.
Lemma at_head c n a m : at_paren (c :: n) = Some (a, m) -> (c =?c c_lparen) = false -> from_paren n = Some m.
Proof.
  cbn [at_paren]. intros H E. rewrite E in H. destruct (at_paren n) as [[x y]|] eqn:Q; [|discriminate]. injection H as <- <-. clear E. revert x y Q.
  induction n as [|d n IH]; intros x y Q; cbn [at_paren from_paren] in *; [discriminate|]. destruct (d =?c c_lparen); [injection Q as <- <-; reflexivity|].
  destruct (at_paren n) as [[u v]|]; [|discriminate]. injection Q as <- <-. exact (IH u v eq_refl).
Qed.
Lemma ar_parts n : ar_name n = true -> exists a m, at_paren n = Some (a, m ++ [c_rparen]) /\ n = a ++ c_lparen :: m ++ [c_rparen].
Proof.
  destruct n as [|c n]; [discriminate|]. cbn [ar_name]. destruct (c =?c c_lparen) eqn:E; [discriminate|]. destruct (from_paren n) as [m|] eqn:FP; [|discriminate].
  intros H. apply andb_true_iff in H. destruct H as [H1 H2]. apply Nat.leb_le in H1. apply eqc_true in H2.
  destruct (from_at _ _ FP) as (a & AP). assert (AP' : at_paren (c :: n) = Some (c :: a, m)) by (cbn [at_paren]; rewrite E, AP; reflexivity).
  assert (NE : m <> []) by (intros ->; cbn in H1; lia). rewrite (app_removelast_last c_nul NE), H2 in AP'.
  exists (c :: a), (removelast m). split; [exact AP'|]. pose proof (at_paren_spec (c :: n)) as SP. rewrite AP' in SP. exact (proj1 SP).
Qed.
Lemma not_fatal n : ordinary n -> ar_fatal n && ar_name n = false.
Proof.
  intros (_ & _ & A). destruct (ar_name n) eqn:N; [|apply andb_false_r]. destruct (ar_parts n N) as (a & m & AP & E). unfold ar_fatal. rewrite AP, andb_true_r.
  destruct m as [|c m]; [reflexivity|]. cbn [app starts_with]. destruct (c =?c c_lparen) eqn:B; [|reflexivity]. apply eqc_true in B. subst c.
  rewrite app_comm_cons, rev_app_distr. cbn [rev app]. destruct (rev m ++ [c_lparen]) as [|d l] eqn:R; [destruct (rev m); discriminate|].
  destruct (d =?c c_rparen) eqn:D; [|reflexivity]. apply eqc_true in D. subst d. exfalso. apply A.
  destruct (rev m) as [|d r] eqn:RM; [discriminate|]. injection R as -> _. exists a, (rev r). rewrite E. apply (f_equal (@rev ascii)) in RM. rewrite rev_involutive in RM. rewrite RM. cbn [rev].
  cbn [s2l app]. rewrite <- !app_assoc. reflexivity.
Qed.
Lemma emit_ordinary noar nocache prefix tilde glob members n : ordinary n ->
  emit noar false false nocache prefix tilde glob members n = Some [pre prefix n].
Proof.
  intros O. unfold emit. assert (T : starts_with "~" n = false).
  { destruct O as (_ & T & _). destruct n as [|c n]; [reflexivity|]. cbn [starts_with]. apply Ascii.eqb_neq. intros ->. exact (T n eq_refl). }
  rewrite T. rewrite <- andb_assoc, (not_fatal n O), andb_false_r. cbv zeta.
  assert (G : globbed false glob n = [n]) by (unfold globbed; rewrite (no_pattern n O); reflexivity).
  destruct (negb noar && ar_name n) eqn:N; [|rewrite G; reflexivity].
  apply andb_true_iff in N. destruct N as [_ N]. destruct (ar_parts n N) as (a & m & AP & E). rewrite AP.
  rewrite removelast_last. destruct O as (O & _).
  assert (GA : globbed false glob a = [a]).
  { unfold globbed. assert (X : existsb (fun c => (c =?c "?") || (c =?c "*") || (c =?c "[")) a = false); [|rewrite X; reflexivity].
    apply no_pattern. split; [intros c I; apply O; rewrite E; apply in_or_app; left; exact I|]. pose proof (at_paren_spec n) as SP. rewrite AP in SP. destruct SP as [_ SP].
    split.
    - intros r ->. rewrite E in T. cbn [app starts_with] in T. discriminate.
    - intros (x & y & ->). apply SP. apply in_or_app. right. left. reflexivity. }
  rewrite GA. cbn [flat_map]. rewrite no_ar_pattern; [|intros c I; apply O; rewrite E; apply in_or_app; right; right; apply in_or_app; left; exact I].
  cbn [app]. rewrite <- E. reflexivity.
Qed.

(** The names in a text are its words, without leading "./", the archive groups taken apart. *)
Theorem C58_names :
  forall stop (oneword nostrip noar noglob exist nocache : bool) prefix tilde glob members text ws rest,
  good_stop stop -> reads stop (sep oneword) text ws rest ->
  no_quoted_stop stop text \/ Forall (fun w => ~ In c_lparen w) ws ->
  let names := map (fun w => if nostrip then w else clean w) ws in
  exists ns, (if noar then ns = names else grouped names ns) /\
    (noglob = true \/ exist = false /\ Forall ordinary ns ->
     parse_file_seq stop oneword nostrip noar noglob exist nocache prefix tilde glob members text = Names (map (pre prefix) ns) rest).
Proof.
  intros stop oneword nostrip noar noglob exist nocache prefix tilde glob members text ws rest (SB & SS) R Q names.
  destruct (loop_spec stop oneword nostrip noar noglob exist nocache prefix tilde glob members SB SS (S (length text)) (S (length text)) text ws rest ltac:(lia) ltac:(lia) R) as [L _].
  destruct (L Q) as (ns & G & E). exists ns. split; [exact G|]. intros H. unfold parse_file_seq. rewrite E. unfold fin.
  match goal with |- context [all ?a ?b ?c ?d ?e ?f ?g ?h ns] => assert (A : all a b c d e f g h ns = Some (map (pre prefix) ns)) end.
  { clear - H. induction ns as [|n ns IH]; [reflexivity|]. cbn [all map].
    assert (X : emit noar noglob exist nocache prefix tilde glob members n = Some [pre prefix n]).
    { destruct H as [-> |[-> F]]; [reflexivity|]. inversion F. destruct noglob; [reflexivity|apply emit_ordinary; assumption]. }
    rewrite X, IH; [reflexivity|]. destruct H as [H|[H F]]; [left; exact H|right; split; [exact H|inversion F; assumption]]. }
  rewrite A. reflexivity.
Qed.
Print Assumptions C58_names.

(** Every text has one reading, and the words one grouping. *)
Theorem C58_one_reading :
  (forall stop oneword text, good_stop stop -> exists ws rest, reads stop (sep oneword) text ws rest /\ forall ws' rest', reads stop (sep oneword) text ws' rest' -> ws' = ws /\ rest' = rest) /\
  (forall ws ns ns', grouped ws ns -> grouped ws ns' -> ns = ns').
Proof.
  split; [|intros ws ns ns' A B; exact (grouped_unique ws ns A ns' B)]. intros stop oneword text (SB & SS).
  assert (BL : forall c, sep oneword c = true -> isblank c = true) by (unfold sep; intros c H; apply andb_true_iff in H; exact (proj2 H)).
  destruct (reads_exists stop (sep oneword) BL (S (length text)) text ltac:(lia)) as (ws & rest & R). exists ws, rest. split; [exact R|].
  intros ws' rest' R'. destruct (reads_unique stop (sep oneword) text ws rest R ws' rest' R') as [-> ->]. split; reflexivity.
Qed.
Print Assumptions C58_one_reading.

(** The temporary buffer, as long as the text, is never overrun, and the reading ends, for every text. *)
Theorem C58_buffer :
  forall stop oneword nostrip noar noglob exist nocache prefix tilde glob members text, good_stop stop ->
  parse_file_seq stop oneword nostrip noar noglob exist nocache prefix tilde glob members text <> Overrun /\
  parse_file_seq stop oneword nostrip noar noglob exist nocache prefix tilde glob members text <> NoFuel.
Proof.
  intros stop oneword nostrip noar noglob exist nocache prefix tilde glob members text (SB & SS).
  assert (BL : forall c, sep oneword c = true -> isblank c = true) by (unfold sep; intros c H; apply andb_true_iff in H; exact (proj2 H)).
  destruct (reads_exists stop (sep oneword) BL (S (length text)) text ltac:(lia)) as (ws & rest & R).
  exact (proj1 (loop_fine stop oneword nostrip noar noglob exist nocache prefix tilde glob members SB SS (S (length text)) (S (length text)) text ws rest ltac:(lia) ltac:(lia) R)).
Qed.
Print Assumptions C58_buffer.

(** Names written with blanks and stop characters quoted. *)
Definition written (special : ascii -> bool) (ns : list str) : str := flat_map (fun n => quote_open special n ++ [c_sp]) ns.
Definition writable (n : str) : Prop :=
  match n with [] => False | c :: _ => isspace c = true -> isblank c = true end /\ ~ In c_lparen n.

Lemma quote_bs special : forall s m, exists r, quote_aux (fun n => 2 * n) special (S m) s = c_bslash :: r.
Proof.
  induction s as [|c s IH]; intros m; cbn [quote_aux].
  - exists (repeat c_bslash (m + S (m + 0))). reflexivity.
  - destruct (c =?c c_bslash); [apply IH|]. destruct (special c); [|cbn [repeat app]; eexists; reflexivity].
    replace (2 * S m + 1) with (S (2 * m + 2)) by lia. cbn [repeat app]. eexists. reflexivity.
Qed.
Lemma quote_first special c n : special c_bslash = false -> (isspace c = true -> special c = true) ->
  exists d r, quote_open special (c :: n) = d :: r /\ isspace d = false /\ special d = false.
Proof.
  intros B A. unfold quote_open. cbn [quote_aux]. destruct (c =?c c_bslash) eqn:E.
  - destruct (quote_bs special n 0) as (r & ->). exists c_bslash, r. repeat split. exact B.
  - destruct (special c) eqn:SC.
    + exists c_bslash. cbn [Nat.mul Nat.add repeat app]. eexists. repeat split. exact B.
    + exists c. cbn [repeat app]. eexists. repeat split; [|exact SC]. destruct (isspace c); [|reflexivity]. specialize (A eq_refl). congruence.
Qed.
Lemma reads_space stop blank t ws e : reads stop blank t ws e -> reads stop blank (c_sp :: t) ws e.
Proof.
  intros R. destruct R as [t T|t c r T ST|t c r w rest ws e T ST U R]; [apply r_end; exact T|eapply r_stop; [exact T|exact ST]|eapply r_word; [exact T|exact ST|exact U|exact R]].
Qed.
Lemma reads_written stop ns tail : good_stop stop -> Forall writable ns -> (tail = [] \/ exists c r, tail = c :: r /\ stop c = true) ->
  reads stop (sep false) (written (fun c => stop c || isblank c) ns ++ tail) ns tail.
Proof.
  intros (SB & SS) F T. induction ns as [|n ns IH]; cbn [written flat_map app].
  - destruct T as [-> |(c & r & -> & ST)]; [apply r_end; reflexivity|]. apply r_stop; [|exact ST]. cbn [trim]. destruct (isspace c) eqn:E; [|reflexivity]. rewrite (SS c E) in ST. discriminate.
  - inversion F as [|? ? W F']; subst. destruct W as [W1 W2]. destruct n as [|c n]; [destruct W1|].
    assert (BS : (fun c => stop c || isblank c) c_bslash = false) by (cbn beta; rewrite SB; reflexivity).
    destruct (quote_first (fun c => stop c || isblank c) c n BS) as (d & r & E & D1 & D2); [intros H; cbn beta; rewrite (W1 H), orb_true_r; reflexivity|].
    fold (written (fun c => stop c || isblank c) ns). set (post := written (fun c => stop c || isblank c) ns ++ tail).
    replace ((((quote_open (fun c0 : ascii => stop c0 || isblank c0) (c :: n) ++ [c_sp]) ++ written (fun c0 : ascii => stop c0 || isblank c0) ns) ++ tail))
      with (quote_open (fun c0 : ascii => stop c0 || isblank c0) (c :: n) ++ c_sp :: post) by (unfold post; rewrite <- !app_assoc; reflexivity).
    apply (r_word stop (sep false) _ d (r ++ c_sp :: post) (c :: n) (Some (c_sp :: post))).
    + rewrite E. cbn [app trim]. rewrite D1. reflexivity.
    + apply orb_false_iff in D2. exact (proj1 D2).
    + pose proof (unq_quote_open (fun c => stop c || isblank c) BS c_sp post ltac:(cbn beta; rewrite orb_true_r; reflexivity) (c :: n) 0) as Q.
      change (quote_aux (fun n => 2 * n) (fun c => stop c || isblank c) 0 (c :: n)) with (quote_open (fun c => stop c || isblank c) (c :: n)) in Q. rewrite E in Q. exact Q.
    + apply reads_space. apply IH. exact F'.
Qed.
Lemma grouped_none ws : Forall (fun w => ~ In c_lparen w) ws -> grouped ws ws.
Proof.
  induction 1 as [|w ws H F IH]; [constructor|]. apply g_plain; [|exact IH]. intros [(lib & m & E & _) _]. apply H. rewrite E. apply in_or_app. right. left. reflexivity.
Qed.

(** Names with any characters come back from their quoted form: the rest of the text begins at the stop character. *)
Theorem C58_quoted :
  forall stop (nostrip noar noglob nocache : bool) prefix tilde glob members ns tail,
  good_stop stop -> Forall writable ns -> (nostrip = true \/ Forall (fun n => clean n = n) ns) -> (noglob = true \/ Forall ordinary ns) ->
  (tail = [] \/ exists c r, tail = c :: r /\ stop c = true) ->
  parse_file_seq stop false nostrip noar noglob false nocache prefix tilde glob members (written (fun c => stop c || isblank c) ns ++ tail)
  = Names (map (pre prefix) ns) tail.
Proof.
  intros stop nostrip noar noglob nocache prefix tilde glob members ns tail GS W CL OR TL.
  pose proof (reads_written stop ns tail GS W TL) as R.
  assert (NP : Forall (fun w => ~ In c_lparen w) ns) by (eapply Forall_impl; [|exact W]; intros a [_ H]; exact H).
  destruct (C58_names stop false nostrip noar noglob false nocache prefix tilde glob members _ ns tail GS R (or_intror NP)) as (ns' & G & E).
  assert (M : map (fun w => if nostrip then w else clean w) ns = ns).
  { destruct nostrip; [apply map_id|]. destruct CL as [CL|CL]; [discriminate|]. induction CL as [|n ns H F IH]; [reflexivity|]. cbn [map]. rewrite H. f_equal.
    clear - F. induction F as [|n ns H F IH]; [reflexivity|]. cbn [map]. rewrite H, IH. reflexivity. }
  rewrite M in G. assert (X : ns' = ns).
  { destruct noar; [exact G|]. exact (grouped_unique ns ns' G ns (grouped_none ns NP)). }
  subst ns'. apply E. destruct OR as [OR|OR]; [left; exact OR|right; split; [reflexivity|exact OR]].
Qed.
Print Assumptions C58_quoted.

(** Prerequisites to the left of the first bar are normal, those to the right order-only. *)
Definition bar (c : ascii) : bool := (c =?c c_pipe) || isblank c.
Theorem C58_order_only :
  forall tilde glob members ns ns',
  Forall writable ns -> Forall writable ns' -> Forall ordinary (ns ++ ns') -> Forall (fun n => clean n = n) (ns ++ ns') ->
  split_prereqs tilde glob members (written bar ns ++ c_pipe :: written isblank ns') = Some (ns, ns') /\
  split_prereqs tilde glob members (written bar ns) = Some (ns, []).
Proof.
  intros tilde glob members ns ns' W W' O C. apply Forall_app in O. destruct O as [O O']. apply Forall_app in C. destruct C as [C C'].
  assert (GB : good_stop (fun c => c =?c c_pipe)) by (split; [reflexivity|]; intros c H; apply Ascii.eqb_neq; intros ->; discriminate).
  assert (GN : good_stop no_stop) by (split; reflexivity).
  pose proof (C58_quoted (fun c => c =?c c_pipe) false false false false None tilde glob members ns) as Q.
  change (fun c : ascii => (c =?c c_pipe) || isblank c) with bar in Q.
  assert (ID : forall l : list str, map (pre None) l = l) by (intros; apply map_id). rewrite ID in Q.
  pose proof (C58_quoted no_stop false false false false None tilde glob members ns' [] GN W' (or_intror C') (or_intror O') (or_introl eq_refl)) as Q'.
  rewrite ID, app_nil_r in Q'. change (fun c : ascii => no_stop c || isblank c) with (fun c => isblank c) in Q'. unfold split_prereqs. split.
  - rewrite Q; [|exact GB|exact W|right; exact C|right; exact O|right; exists c_pipe, (written isblank ns'); split; reflexivity].
    change (written (fun c : ascii => isblank c) ns') with (written isblank ns') in Q'. rewrite Q'. reflexivity.
  - rewrite <- (app_nil_r (written bar ns)). rewrite Q; [reflexivity|exact GB|exact W|right; exact C|right; exact O|left; reflexivity].
Qed.
Print Assumptions C58_order_only.

(** lib(a b c) means lib(a) lib(b) lib(c). *)
Definition solid_word (w : str) : Prop := w <> [] /\ forall c, In c w -> isspace c = false /\ c <> c_bslash.
Definition plain_word (w : str) : Prop := solid_word w /\ (forall c, In c w -> c <> c_lparen /\ c <> c_rparen) /\ (forall r, w <> c_dot :: r).

Lemma unq_solid special s : special c_bslash = false -> (forall c, In c s -> special c = false /\ c <> c_bslash) -> forall post,
  (post = [] -> unq special 0 (s ++ post) = (s, None)) /\ (forall x r, post = x :: r -> special x = true -> unq special 0 (s ++ post) = (s, Some post)).
Proof.
  intros B A post. induction s as [|c s IH]; cbn [app].
  - split; [intros ->; reflexivity|]. intros x r -> X. cbn [unq]. destruct (x =?c c_bslash) eqn:E; [apply eqc_true in E; congruence|]. rewrite X. reflexivity.
  - destruct (A c (or_introl eq_refl)) as [A1 A2]. destruct IH as [I1 I2]; [intros d I; apply A; right; exact I|].
    assert (E : (c =?c c_bslash) = false) by (apply Ascii.eqb_neq; exact A2). cbn [unq]. rewrite E, A1. cbn [repeat app]. split.
    + intros H. rewrite (I1 H). reflexivity.
    + intros x r H X. rewrite (I2 x r H X). reflexivity.
Qed.
Lemma solid_not c w : solid_word w -> In c w -> no_stop c || sep false c = false /\ c <> c_bslash.
Proof. intros (_ & H) I. destruct (H c I) as [H1 H2]. split; [|exact H2]. unfold no_stop, sep. cbn [orb negb andb]. destruct (isblank c) eqn:E; [apply isblank_isspace in E; congruence|reflexivity]. Qed.
Lemma reads_solid ws : Forall solid_word ws -> reads no_stop (sep false) (join_sp ws) ws [].
Proof.
  induction 1 as [|w ws H F IH]; [apply r_end; reflexivity|]. pose proof H as H0. destruct H as [NE H]. destruct w as [|c w]; [congruence|].
  assert (TR : forall s, trim ((c :: w) ++ s) = c :: w ++ s) by (intros s; cbn [app trim]; destruct (H c (or_introl eq_refl)) as [-> _]; reflexivity).
  destruct ws as [|w' ws].
  - cbn [join_sp]. eapply (r_word _ _ _ c w (c :: w) None); [pose proof (TR []) as X; rewrite !app_nil_r in X; exact X|reflexivity| |apply r_end; reflexivity].
    pose proof (proj1 (unq_solid (fun x => no_stop x || sep false x) (c :: w) eq_refl (fun d I => solid_not d _ H0 I) []) eq_refl) as X. rewrite app_nil_r in X. exact X.
  - change (join_sp ((c :: w) :: w' :: ws)) with ((c :: w) ++ c_sp :: join_sp (w' :: ws)).
    eapply (r_word _ _ _ c (w ++ c_sp :: join_sp (w' :: ws)) (c :: w) (Some (c_sp :: join_sp (w' :: ws)))); [apply TR|reflexivity| |apply reads_space; exact IH].
    eapply (proj2 (unq_solid _ (c :: w) eq_refl (fun d I => solid_not d _ H0 I) (c_sp :: join_sp (w' :: ws)))); reflexivity.
Qed.
Lemma clean_plain w s : plain_word w -> clean (w ++ s) = w ++ s.
Proof.
  intros ((NE & _) & _ & D). destruct w as [|c w]; [congruence|]. unfold clean. cbn [app undot andb].
  assert (E : (c =?c c_dot) = false) by (apply Ascii.eqb_neq; intros ->; exact (D w eq_refl)). rewrite E. cbn [andb]. destruct (w ++ s); reflexivity.
Qed.
Lemma not_closing u w : plain_word w -> ~ closing (u ++ w).
Proof.
  intros ((NE & _) & P1 & _) (v & E). destruct (exists_last NE) as (w' & c & ->). rewrite app_assoc in E. apply app_inj_tail in E. destruct E as [_ ->].
  destruct (P1 c_rparen) as [_ X]; [apply in_or_app; right; left; reflexivity|]. congruence.
Qed.
Definition member (lib m : str) : str := lib ++ c_lparen :: m ++ [c_rparen].
Fixpoint join_with_sp (l : list str) : str := match l with [] => [] | [a] => a | a :: l' => a ++ c_sp :: join_with_sp l' end.
Lemma join_same l : join_with_sp l = join_sp l. Proof. induction l as [|a [|b l] IH]; [reflexivity|reflexivity|]. change (join_with_sp (a :: b :: l)) with (a ++ c_sp :: join_with_sp (b :: l)). rewrite IH. reflexivity. Qed.

Theorem C58_archive :
  forall noglob nocache prefix tilde glob members lib m ms,
  plain_word lib -> Forall plain_word (m :: ms) -> (noglob = true \/ Forall ordinary (lib :: m :: ms)) ->
  parse_file_seq no_stop false false false noglob false nocache prefix tilde glob members (member lib (join_with_sp (m :: ms)))
  = Names (map (fun x => pre prefix (member lib x)) (m :: ms)) [].
Proof.
  intros noglob nocache prefix tilde glob members lib m ms PL PM OR. rewrite join_same.
  (* the words *)
  set (ws := match rev ms with [] => [member lib m] | z :: r => (lib ++ c_lparen :: m) :: rev r ++ [z ++ [c_rparen]] end).
  assert (SW : forall w a b, plain_word w -> (a = [] \/ a = lib ++ [c_lparen]) -> (b = [] \/ b = [c_rparen]) -> solid_word (a ++ w ++ b)).
  { intros w a b ((NE & H) & _) A B. split; [intros E; apply app_eq_nil in E; destruct E as [_ E]; apply app_eq_nil in E; destruct E; contradiction|].
    intros c I. apply in_app_or in I. destruct I as [I|I].
    - destruct A as [-> | ->]; [destruct I|]. apply in_app_or in I. destruct I as [I|[<- |[]]]; [exact (proj2 (proj1 PL) c I)|split; [reflexivity|discriminate]].
    - apply in_app_or in I. destruct I as [I|I]; [exact (H c I)|]. destruct B as [-> | ->]; [destruct I|]. destruct I as [<- |[]]. split; [reflexivity|discriminate]. }
  inversion PM as [|? ? PM1 PM2]; subst.
  assert (JS : member lib (join_sp (m :: ms)) = join_sp ws /\ Forall solid_word ws /\ map clean ws = ws /\ grouped ws (map (member lib) (m :: ms))).
  { unfold ws. destruct (rev ms) as [|z r] eqn:R.
    - apply (f_equal (@rev str)) in R. rewrite rev_involutive in R. cbn [rev] in R. subst ms. cbn [join_sp map]. split; [reflexivity|]. split; [|split].
      + constructor; [|constructor]. unfold member. pose proof (SW m (lib ++ [c_lparen]) [c_rparen] PM1 (or_intror eq_refl) (or_intror eq_refl)) as X. rewrite <- app_assoc in X. exact X.
      + f_equal. apply clean_plain. exact PL.
      + apply g_plain; [|constructor]. intros [(l & y & _ & _ & _ & NC) _]. apply NC. exists (lib ++ c_lparen :: m). unfold member. rewrite <- app_assoc. reflexivity.
    - apply (f_equal (@rev str)) in R. rewrite rev_involutive in R. cbn [rev] in R. subst ms. set (l := rev r) in *. clearbody l. clear ws r.
      apply Forall_app in PM2. destruct PM2 as [PL2 PZ]. inversion PZ as [|? ? PZ1 _]; subst. clear PZ.
      assert (J : forall a, join_sp (a :: l ++ [z]) ++ [c_rparen] = join_sp (a :: l ++ [z ++ [c_rparen]])).
      { clear. induction l as [|b l IH]; intros a.
        - cbn [app join_sp]. rewrite <- app_assoc. reflexivity.
        - change (join_sp (a :: (b :: l) ++ [z])) with (a ++ c_sp :: join_sp (b :: l ++ [z])). change (join_sp (a :: (b :: l) ++ [z ++ [c_rparen]])) with (a ++ c_sp :: join_sp (b :: l ++ [z ++ [c_rparen]])).
          rewrite <- app_assoc. cbn [app]. rewrite IH. reflexivity. }
      split; [|split; [|split]].
      + unfold member. rewrite J. destruct (l ++ [z ++ [c_rparen]]) as [|b k] eqn:E; [destruct l; discriminate|].
        change (join_sp (m :: b :: k)) with (m ++ c_sp :: join_sp (b :: k)). change (join_sp ((lib ++ c_lparen :: m) :: b :: k)) with ((lib ++ c_lparen :: m) ++ c_sp :: join_sp (b :: k)).
        rewrite <- app_assoc. reflexivity.
      + constructor.
        * pose proof (SW m (lib ++ [c_lparen]) [] PM1 (or_intror eq_refl) (or_introl eq_refl)) as X. rewrite <- app_assoc, app_nil_r in X. exact X.
        * apply Forall_app. split; [eapply Forall_impl; [|exact PL2]; intros a [H _]; exact H|]. constructor; [|constructor]. exact (SW z [] [c_rparen] PZ1 (or_introl eq_refl) (or_intror eq_refl)).
      + cbn [map]. f_equal; [apply clean_plain; exact PL|]. rewrite map_app. f_equal; [|cbn [map]; f_equal; apply clean_plain; exact PZ1].
        clear - PL2. induction PL2 as [|a l H F IH]; [reflexivity|]. cbn [map]. rewrite IH. pose proof (clean_plain a [] H) as X. rewrite !app_nil_r in X. rewrite X. reflexivity.
      + assert (FN : filter nonempty (m :: l ++ [z]) = m :: l ++ [z]).
        { assert (X : forall k, Forall plain_word k -> filter nonempty k = k).
          { clear. induction 1 as [|a k ((NE & _) & _) F IH]; [reflexivity|]. cbn [filter]. destruct a as [|c a]; [congruence|]. cbn [nonempty]. rewrite IH. reflexivity. }
          apply X. constructor; [exact PM1|apply Forall_app; split; [exact PL2|constructor; [exact PZ1|constructor]]]. }
        rewrite <- FN, <- (app_nil_r (map _ _)). apply (g_group lib m l z [] []).
        * exact (proj1 (proj1 PL)).
        * intros I. destruct (proj1 (proj2 PL) _ I) as [X _]. congruence.
        * change (lib ++ c_lparen :: m) with (lib ++ [c_lparen] ++ m). rewrite app_assoc. apply not_closing. exact PM1.
        * eapply Forall_impl; [|exact PL2]. intros a H. exact (not_closing [] a H).
        * constructor. }
  destruct JS as (J & SWS & CW & G). rewrite J.
  destruct (C58_names no_stop false false false noglob false nocache prefix tilde glob members (join_sp ws) ws [] ltac:(split; reflexivity) (reads_solid ws SWS)) as (ns & G' & E).
  { left. intros a x b _. reflexivity. }
  cbn beta iota in G'. change (grouped (map clean ws) ns) in G'. rewrite CW in G'. rewrite (grouped_unique ws ns G' _ G) in E. rewrite E; [rewrite map_map; reflexivity|].
  destruct OR as [OR|OR]; [left; exact OR|right; split; [reflexivity|]].
  inversion OR as [|? ? OL OM]; subst. assert (PP : Forall plain_word (m :: ms)) by exact PM. clear - PL PP OL OM.
  induction OM as [|a k OA OK IH]; [constructor|]. inversion PP as [|? ? PA PK]; subst. cbn [map]. constructor; [|apply IH; exact PK].
  destruct OL as (L1 & L2 & _). destruct OA as (A1 & A2 & _). destruct PL as ((NE & _) & P1 & _). destruct PA as (_ & P2 & _). split; [|split].
  - intros c I. unfold member in I. apply in_app_or in I. destruct I as [I|[<- |I]]; [exact (L1 c I)|repeat split; discriminate|]. apply in_app_or in I. destruct I as [I|[<- |[]]]; [exact (A1 c I)|repeat split; discriminate].
  - unfold member. destruct lib as [|c lib]; [congruence|]. intros r X. injection X as -> _. exact (L2 lib eq_refl).
  - intros (x & y & X). unfold member in X.
    assert (CO : forall s, (forall c, In c s -> c <> c_lparen /\ c <> c_rparen) -> count_occ Ascii.ascii_dec s c_lparen = 0).
    { intros s H. apply count_occ_not_In. intros I. destruct (H _ I). congruence. }
    change (s2l "((") with [c_lparen; c_lparen] in X. change (lib ++ c_lparen :: a ++ [c_rparen]) with (lib ++ [c_lparen] ++ a ++ [c_rparen]) in X.
    assert (K : count_occ Ascii.ascii_dec (lib ++ [c_lparen] ++ a ++ [c_rparen]) c_lparen = 1) by (rewrite !count_occ_app, (CO lib P1), (CO a P2); reflexivity).
    rewrite X, !count_occ_app in K. change (count_occ Ascii.ascii_dec [c_lparen; c_lparen] c_lparen) with 2 in K. lia.
Qed.
Print Assumptions C58_archive.

(** $(wildcard): each word gives the files that match it, and nothing if there is none. *)
Definition matches (glob : str -> gres) (w : str) : list str := match glob w with GFound l => l | GNoMatch => [] | GOther => [w] end.
Theorem C58_wildcard :
  forall tilde glob members line ws, reads no_stop (sep false) line ws [] ->
  Forall (fun w => ~ In c_lparen w /\ forall r, w <> "~"%char :: r) ws ->
  string_glob tilde glob members line = Some (join_with_sp (flat_map (matches glob) ws)).
Proof.
  intros tilde glob members line ws R F.
  assert (NP : Forall (fun w => ~ In c_lparen w) ws) by (eapply Forall_impl; [|exact F]; intros a [H _]; exact H).
  destruct (loop_spec no_stop false true false false true true None tilde glob members eq_refl (fun _ _ => eq_refl) (S (length line)) (S (length line)) line ws [] ltac:(lia) ltac:(lia) R) as [L _].
  destruct (L (or_intror NP)) as (ns & G & E). unfold string_glob, parse_file_seq. rewrite E.
  assert (X : ns = ws).
  { unfold groups in G. assert (M : map (cl true) ws = ws) by apply map_id. rewrite M in G. exact (grouped_unique ws ns G ws (grouped_none ws NP)). }
  subst ns. unfold fin.
  match goal with |- context [all ?a ?b ?c ?d ?e ?f ?g ?h ws] => assert (A : all a b c d e f g h ws = Some (flat_map (matches glob) ws)) end.
  { clear - F. induction F as [|w ws [H1 H2] F IH]; [reflexivity|]. cbn [all flat_map]. rewrite IH.
    assert (T : starts_with "~" w = false) by (destruct w as [|c w]; [reflexivity|]; apply Ascii.eqb_neq; intros ->; exact (H2 w eq_refl)).
    assert (N : ar_name w = false).
    { destruct (ar_name w) eqn:N; [|reflexivity]. destruct (ar_parts w N) as (a & m & _ & E). exfalso. apply H1. rewrite E. apply in_or_app. right. left. reflexivity. }
    unfold emit. rewrite T. cbv zeta. rewrite N, !andb_false_r. unfold globbed, matches. cbn [negb andb].
    destruct (glob w) as [l| |]; [|reflexivity|reflexivity]. assert (M : map (with_prefix None) l = l) by apply map_id. rewrite M. reflexivity. }
  rewrite A. reflexivity.
Qed.
Print Assumptions C58_wildcard.

(** ** Cases *)
Definition nodir (s : str) : gres := GNoMatch.
Definition notilde (s : str) : option str := None.
Definition noar (a b : str) : list str := [].
Definition bars := fun c : ascii => c =?c c_pipe.
Lemma bars_good : good_stop bars. Proof. split; [reflexivity|]. intros c H. apply Ascii.eqb_neq. intros ->. discriminate. Qed.

Example C58_names_case :
  parse_file_seq bars false false false false false false None notilde nodir noar "  ./a .//./b\ c lib(x y ) | d" = Names [s2l "a"; s2l "b c"; s2l "lib(x)"; s2l "lib(y)"] (s2l "| d").
Proof. reflexivity. Qed.
Example C58_names_hypotheses :
  good_stop bars /\ reads bars (sep false) "  ./a b\ c lib(x y) | d" [s2l "./a"; s2l "b c"; s2l "lib(x"; s2l "y)"] (s2l "| d") /\
  no_quoted_stop bars "  ./a b\ c lib(x y) | d" /\
  grouped [s2l "a"; s2l "b c"; s2l "lib(x"; s2l "y)"] [s2l "a"; s2l "b c"; s2l "lib(x)"; s2l "lib(y)"].
Proof.
  split; [exact bars_good|]. split; [|split].
  - eapply r_word; [reflexivity|reflexivity|reflexivity|]. eapply r_word; [reflexivity|reflexivity|reflexivity|]. eapply r_word; [reflexivity|reflexivity|reflexivity|]. eapply r_word; [reflexivity|reflexivity|reflexivity|].
    eapply r_stop; reflexivity.
  - intros a x b E. cbn in E. repeat (destruct a as [|? a]; [first [discriminate E | injection E as <- _; reflexivity]|injection E as _ E]).
    destruct a; discriminate.
  - apply g_plain; [intros [(l & m & E & _ & N & _) _]; assert (In c_lparen (s2l "a")) by (rewrite E; apply in_or_app; right; left; reflexivity); cbn in H; intuition discriminate|].
    apply g_plain; [intros [(l & m & E & _ & N & _) _]; assert (In c_lparen (s2l "b c")) by (rewrite E; apply in_or_app; right; left; reflexivity); cbn in H; intuition discriminate|].
    apply (g_group (s2l "lib") (s2l "x") [] (s2l "y") [] []); [discriminate|cbn; intuition discriminate| |constructor|constructor].
    intros H. apply ends_closing in H. discriminate.
Qed.
Example C58_quoted_case :
  written (fun c => bars c || isblank c) [s2l "a b"; s2l "x|y"; s2l "e\"; s2l "z"] = s2l "a\ b x\|y e\\ z " /\
  parse_file_seq bars false false false false false false None notilde nodir noar "a\ b x\|y e\\ z | c" = Names [s2l "a b"; s2l "x|y"; s2l "e\"; s2l "z"] (s2l "| c") /\
  Forall writable [s2l "a b"; s2l "x|y"; s2l "e\"; s2l "z"].
Proof. split; [reflexivity|split; [reflexivity|]]. repeat constructor; cbn; intuition discriminate. Qed.
Example C58_order_only_case :
  split_prereqs notilde nodir noar "a b|c  d" = Some ([s2l "a"; s2l "b"], [s2l "c"; s2l "d"]).
Proof. reflexivity. Qed.
Example C58_archive_case :
  parse_file_seq no_stop false false false false false false None notilde nodir noar (member "lib.a" (join_with_sp [s2l "x.o"; s2l "y.o"; s2l "z.o"]))
  = Names [s2l "lib.a(x.o)"; s2l "lib.a(y.o)"; s2l "lib.a(z.o)"] [] /\ plain_word "lib.a" /\ plain_word "x.o".
Proof. split; [reflexivity|]. split; (split; [split; [discriminate|]|split; [|intros r; discriminate]]); intros c H; cbn in H; intuition (subst; (reflexivity || discriminate)). Qed.
Definition dir1 (s : str) : gres := if str_eqb s "*.c" then GFound [s2l "a.c"; s2l "b.c"] else if str_eqb s "lib.a" then GFound [s2l "lib.a"] else GNoMatch.
Example C58_wildcard_case : string_glob notilde dir1 noar " *.c no.h lib.a" = Some (s2l "a.c b.c lib.a").
Proof. reflexivity. Qed.

(** ** Where the reading is not what the text says *)
(** Inside an archive group a quoted stop character ends the search for the closing parenthesis: the group is not taken apart. *)
Theorem C58_quoted_stop_refuted :
  exists text, reads bars (sep false) text [s2l "l(m"; s2l "x|y"; s2l "n)"] [] /\
    (exists ns, grouped [s2l "l(m"; s2l "x|y"; s2l "n)"] ns /\ ns = [s2l "l(m)"; s2l "l(x|y)"; s2l "l(n)"]) /\
    parse_file_seq bars false false false true false false None notilde nodir noar text = Names [s2l "l(m"; s2l "x|y"; s2l "n)"] [].
Proof.
  exists (s2l "l(m x\|y n)"). split; [|split; [|reflexivity]].
  - eapply r_word; [reflexivity|reflexivity|reflexivity|]. eapply r_word; [reflexivity|reflexivity|reflexivity|]. eapply r_word; [reflexivity|reflexivity|reflexivity|]. apply r_end. reflexivity.
  - eexists. split; [|reflexivity]. apply (g_group (s2l "l") (s2l "m") [s2l "x|y"] (s2l "n") [] []); [discriminate|cbn; intuition discriminate|intros H; apply ends_closing in H; discriminate| |constructor].
    constructor; [|constructor]. intros H. apply ends_closing in H. discriminate.
Qed.
Print Assumptions C58_quoted_stop_refuted.
(** A newline or a carriage return is white space in front of a name but does not end one. *)
Theorem C58_newline_refuted :
  exists a b : str, plain_word a /\ plain_word b /\
    parse_file_seq no_stop false false false false false false None notilde nodir noar (a ++ c_nl :: b) = Names [a ++ c_nl :: b] [] /\
    parse_file_seq no_stop false false false false false false None notilde nodir noar (a ++ c_sp :: c_nl :: b) = Names [a; b] [].
Proof.
  exists (s2l "a"), (s2l "b"). split; [|split; [|split; reflexivity]]; (split; [split; [discriminate|]|split; [|intros r; discriminate]]); intros c H; cbn in H; intuition (subst; (reflexivity || discriminate)).
Qed.
Print Assumptions C58_newline_refuted.
(** A second bar is the name of a file. *)
Theorem C58_second_bar_refuted :
  exists text, split_prereqs notilde nodir noar text = Some ([s2l "a"], [s2l "b"; s2l "|"; s2l "c"]).
Proof. exists (s2l "a | b | c"). reflexivity. Qed.
Print Assumptions C58_second_bar_refuted.
(** $(wildcard lib.a( *.o)) is the name of the archive, once for each member that matches; as prerequisites the members are named. *)
Theorem C58_wildcard_archive_refuted :
  exists glob members line,
    string_glob notilde glob members line = Some (s2l "lib.a lib.a") /\
    split_prereqs notilde glob members line = Some ([s2l "lib.a(x.o)"; s2l "lib.a(y.o)"], []).
Proof. exists dir1, (fun _ _ => [s2l "x.o"; s2l "y.o"]), (s2l "lib.a(*.o)"). split; reflexivity. Qed.
Print Assumptions C58_wildcard_archive_refuted.
(** In a group "./" is dropped from the members but the first. *)
Theorem C58_member_dot_refuted :
  exists text, parse_file_seq no_stop false false false false false false None notilde nodir noar text = Names [s2l "l(./a)"; s2l "l(b)"] [].
Proof. exists (s2l "l(./a ./b)"). reflexivity. Qed.
Print Assumptions C58_member_dot_refuted.
