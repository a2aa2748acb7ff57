From Coq Require Import Lia.
From Verif Require Import Base M_Text M_Quote S_Quote P_Quote M_Implicit M_Seq S_Seq.
Open Scope string_scope.
Open Scope list_scope.
Open Scope nat_scope.

Lemma trim_next s : next_token s = trim s.
Proof. induction s as [|c s IH]; [reflexivity|]. cbn [next_token trim]. rewrite IH. reflexivity. Qed.
Lemma trim_split s : exists sp, s = sp ++ trim s /\ forallb isspace sp = true.
Proof.
  induction s as [|c s IH]; [exists []; split; reflexivity|]. cbn [trim]. destruct (isspace c) eqn:E; [|exists []; split; reflexivity].
  destruct IH as (sp & A & B). exists (c :: sp). split; [cbn [app]; rewrite <- A; reflexivity|]. cbn [forallb]. rewrite E. exact B.
Qed.
Lemma trim_length s : length (trim s) <= length s.
Proof. induction s as [|c s IH]; [reflexivity|]. cbn [trim]. destruct (isspace c); cbn [length]; lia. Qed.
Lemma trim_head s c t : trim s = c :: t -> isspace c = false.
Proof. induction s as [|a s IH]; [discriminate|]. cbn [trim]. destruct (isspace a) eqn:E; [exact IH|]. intros H. injection H as -> _. exact E. Qed.
Lemma trim_same s : length (trim s) = length s -> trim s = s.
Proof. destruct s as [|c s]; [reflexivity|]. cbn [trim]. destruct (isspace c); [|reflexivity]. pose proof (trim_length s). cbn [length]. lia. Qed.
Lemma trim_trim s : trim (trim s) = trim s.
Proof. induction s as [|c s IH]; [reflexivity|]. cbn [trim]. destruct (isspace c) eqn:E; [exact IH|]. cbn [trim]. rewrite E. reflexivity. Qed.

Lemma app_cons_ne (u : str) c b : u ++ c :: b <> [].
Proof. destruct u; discriminate. Qed.
(** ends_paren *)
Lemma ends_app v c : ends_paren (v ++ [c]) = (c =?c c_rparen).
Proof. unfold ends_paren. rewrite rev_app_distr. reflexivity. Qed.
Lemma ends_closing w : ends_paren w = true <-> closing w.
Proof.
  unfold closing. split.
  - destruct (rev w) as [|c r] eqn:E; unfold ends_paren; rewrite E; [discriminate|]. intros H. apply eqc_true in H. subst c.
    exists (rev r). rewrite <- (rev_involutive w), E. reflexivity.
  - intros [v ->]. rewrite ends_app. apply eqc_refl.
Qed.
Lemma ends_app_ne u b : b <> [] -> ends_paren (u ++ b) = ends_paren b.
Proof.
  intros N. destruct (exists_last N) as (v & x & ->). rewrite app_assoc, !ends_app. reflexivity.
Qed.
Lemma ends_cons c b : ends_paren (c :: b) = match b with [] => c =?c c_rparen | _ => ends_paren b end.
Proof. destruct b as [|d b]; [reflexivity|]. exact (ends_app_ne [c] (d :: b) ltac:(discriminate)). Qed.
Lemma ends_bs n : ends_paren (repeat c_bslash n) = false.
Proof.
  unfold ends_paren. destruct (rev (repeat c_bslash n)) as [|c r] eqn:E; [reflexivity|].
  assert (I : In c (repeat c_bslash n)) by (apply in_rev; rewrite E; left; reflexivity). apply repeat_spec in I. subst. reflexivity.
Qed.
Section Scan.
  Variables stop blank : ascii -> bool.
  Hypothesis SB : stop c_bslash = false.
  Hypothesis SP : stop c_rparen = false.
  Hypothesis SS : forall c, isspace c = true -> stop c = false.
  Hypothesis BB : forall c, blank c = true -> isblank c = true.
  Let fm (c : ascii) : bool := stop c || blank c.

  Lemma bs_fm : fm c_bslash = false.
  Proof. unfold fm. rewrite SB. destruct (blank c_bslash) eqn:E; [apply BB in E; discriminate|reflexivity]. Qed.
  Lemma rp_fm : fm c_rparen = false.
  Proof. unfold fm. rewrite SP. destruct (blank c_rparen) eqn:E; [apply BB in E; discriminate|reflexivity]. Qed.
  Lemma blank_paren c : blank c = true -> c =?c c_rparen = false.
  Proof. intros H. destruct (c =?c c_rparen) eqn:E; [|reflexivity]. apply eqc_true in E. subst. apply BB in H. discriminate. Qed.

  (** Is there a parenthesis at the end of a word?  [pp]: the last character was one. *)
  Fixpoint scan (pp : bool) (e : str) : bool :=
    match e with
    | [] => pp
    | c :: e' => if fm c then if pp then true else if stop c then false else scan false e' else scan (c =?c c_rparen) e'
    end.
  Definition ends' (pp : bool) (w : str) : bool := match w with [] => pp | _ => ends_paren w end.
  (** No stop character is quoted. *)
  Definition unquoted (s : str) : Prop := forall a x b, s = a ++ c_bslash :: x :: b -> stop x = false.
  Lemma unquoted_tail c s : unquoted (c :: s) -> unquoted s.
  Proof. intros H a x b E. apply (H (c :: a) x b). rewrite E. reflexivity. Qed.
  Lemma unquoted_app u s : unquoted (u ++ s) -> unquoted s.
  Proof. induction u as [|c u IH]; [exact (fun H => H)|]. intros H. apply IH. exact (unquoted_tail _ _ H). Qed.

  Lemma unq_nonempty s : forall m w r, 0 < m -> unq fm m s = (w, r) -> w <> [].
  Proof.
    induction s as [|c s IH]; intros m w r M U; cbn [unq] in U.
    - apply pair_equal_spec in U. destruct U as [<- _]. destruct m; [lia|discriminate].
    - destruct (c =?c c_bslash); [apply (IH (S m) w r ltac:(lia) U)|]. destruct (fm c).
      + destruct (Nat.even m) eqn:E.
        * apply pair_equal_spec in U. destruct U as [<- _]. destruct m as [|[|m]]; [lia|discriminate E|]. intros H. apply (f_equal (@length ascii)) in H. rewrite repeat_length in H.
          assert (1 <= S (S m) / 2) by (apply Nat.div_le_lower_bound; lia). change (S (S m) / 2 = 0) in H. lia.
        * destruct (unq fm 0 s) as [b r']. apply pair_equal_spec in U. destruct U as [<- _]. apply app_cons_ne.
      + destruct (unq fm 0 s) as [b r']. apply pair_equal_spec in U. destruct U as [<- _]. apply app_cons_ne.
  Qed.
  Lemma unq_word c s w r : fm c = false -> unq fm 0 (c :: s) = (w, r) -> w <> [].
  Proof.
    intros F U. cbn [unq] in U. destruct (c =?c c_bslash); [apply (unq_nonempty s 1 w r); [lia|exact U]|]. rewrite F in U.
    destruct (unq fm 0 s) as [b r']. apply pair_equal_spec in U. destruct U as [<- _]. discriminate.
  Qed.
  Lemma ends'_last u c b : ends' false (u ++ c :: b) = ends' (c =?c c_rparen) b.
  Proof.
    unfold ends'. destruct (u ++ c :: b) as [|x l] eqn:E; [destruct u; discriminate|]. rewrite <- E. rewrite ends_app_ne by discriminate.
    rewrite ends_cons. reflexivity.
  Qed.
  Lemma ends'_ne pp w : w <> [] -> ends' pp w = ends' false w.
  Proof. destruct w; [congruence|reflexivity]. Qed.
  Lemma unq_scan s : forall n pp w r, (0 < n -> pp = false) -> unquoted s -> (0 < n -> match s with c :: _ => stop c = false | [] => True end) ->
    unq fm n s = (w, r) -> scan pp s = ends' pp w || match r with Some t => scan false t | None => false end.
  Proof.
    induction s as [|c s IH]; intros n pp w r N Q Z U; cbn [unq] in U.
    - apply pair_equal_spec in U. destruct U as [<- <-]. cbn [scan]. rewrite orb_false_r. destruct n as [|n]; [reflexivity|]. rewrite (N ltac:(lia)). unfold ends'. rewrite ends_bs. destruct (repeat c_bslash (S n)); reflexivity.
    - pose proof (unquoted_tail _ _ Q) as Q'. destruct (c =?c c_bslash) eqn:B.
      + apply eqc_true in B. subst c. cbn [scan]. rewrite bs_fm. change (c_bslash =?c c_rparen) with false.
        rewrite (ends'_ne pp w) by (eapply unq_nonempty; [|exact U]; lia).
        apply (IH (S n) false w r); [reflexivity|exact Q'| |exact U]. intros _. destruct s as [|x s]; [exact I|]. exact (Q [] x s eq_refl).
      + cbn [scan]. destruct (fm c) eqn:F.
        * destruct (Nat.even n) eqn:E.
          -- apply pair_equal_spec in U. destruct U as [<- <-]. assert (X : ends' pp (repeat c_bslash (n / 2)) = pp).
             { destruct n as [|n]; [reflexivity|]. rewrite (N ltac:(lia)). unfold ends'. rewrite ends_bs. destruct (repeat c_bslash (S n / 2)); reflexivity. }
             rewrite X. cbn [scan]. rewrite F. destruct pp; reflexivity.
          -- assert (0 < n) by (destruct n; [discriminate|lia]). rewrite (N H). specialize (Z H). cbn in Z. rewrite Z.
             destruct (unq fm 0 s) as [b r'] eqn:U'. apply pair_equal_spec in U. destruct U as [<- <-]. rewrite ends'_last.
             assert (BL : blank c = true) by (unfold fm in F; rewrite Z in F; exact F). rewrite (blank_paren c BL).
             apply (IH 0 false b r'); [reflexivity|exact Q'|lia|exact U'].
        * destruct (unq fm 0 s) as [b r'] eqn:U'. apply pair_equal_spec in U. destruct U as [<- <-]. rewrite (ends'_ne pp) by apply app_cons_ne. rewrite ends'_last.
          apply (IH 0 (c =?c c_rparen) b r'); [lia|exact Q'|lia|exact U'].
  Qed.
  Lemma unq_scan_weak s : forall n pp w r, (0 < n -> pp = false) ->
    unq fm n s = (w, r) -> scan pp s = true -> ends' pp w || match r with Some t => scan false t | None => false end = true.
  Proof.
    induction s as [|c s IH]; intros n pp w r N U SC; cbn [unq] in U.
    - apply pair_equal_spec in U. destruct U as [<- <-]. cbn [scan] in SC. subst pp. destruct n as [|n]; [reflexivity|]. specialize (N ltac:(lia)). discriminate.
    - destruct (c =?c c_bslash) eqn:B.
      + apply eqc_true in B. subst c. cbn [scan] in SC. rewrite bs_fm in SC. change (c_bslash =?c c_rparen) with false in SC.
        rewrite (ends'_ne pp w) by (eapply unq_nonempty; [|exact U]; lia).
        apply (IH (S n) false w r); [reflexivity|exact U|exact SC].
      + cbn [scan] in SC. destruct (fm c) eqn:F.
        * destruct (Nat.even n) eqn:E.
          -- apply pair_equal_spec in U. destruct U as [<- <-]. assert (X : ends' pp (repeat c_bslash (n / 2)) = pp).
             { destruct n as [|n]; [reflexivity|]. rewrite (N ltac:(lia)). unfold ends'. rewrite ends_bs. destruct (repeat c_bslash (S n / 2)); reflexivity. }
             rewrite X. cbn [scan]. rewrite F. destruct pp; [reflexivity|exact SC].
          -- assert (0 < n) by (destruct n; [discriminate|lia]). rewrite (N H) in *. destruct (stop c) eqn:Z; [discriminate|].
             destruct (unq fm 0 s) as [b r'] eqn:U'. apply pair_equal_spec in U. destruct U as [<- <-]. rewrite ends'_last.
             assert (BL : blank c = true) by (unfold fm in F; rewrite Z in F; exact F). rewrite (blank_paren c BL).
             apply (IH 0 false b r'); [reflexivity|exact U'|exact SC].
        * destruct (unq fm 0 s) as [b r'] eqn:U'. apply pair_equal_spec in U. destruct U as [<- <-]. rewrite (ends'_ne pp) by apply app_cons_ne. rewrite ends'_last.
          apply (IH 0 (c =?c c_rparen) b r'); [lia|exact U'|exact SC].
  Qed.
  Lemma unq_in x s : forall n w r, unq fm n s = (w, r) -> In x w -> x = c_bslash \/ In x s.
  Proof.
    induction s as [|c s IH]; intros n w r U I; cbn [unq] in U.
    - apply pair_equal_spec in U. destruct U as [<- _]. apply repeat_spec in I. left. exact I.
    - destruct (c =?c c_bslash); [destruct (IH _ _ _ U I) as [H|H]; [left; exact H|right; right; exact H]|].
      destruct (fm c); [destruct (Nat.even n)|].
      + apply pair_equal_spec in U. destruct U as [<- _]. apply repeat_spec in I. left. exact I.
      + destruct (unq fm 0 s) as [b r'] eqn:U'. apply pair_equal_spec in U. destruct U as [<- _]. apply in_app_or in I.
        destruct I as [I|[I|I]]; [apply repeat_spec in I; left; exact I|right; left; exact I|]. destruct (IH _ _ _ U' I) as [H|H]; [left; exact H|right; right; exact H].
      + destruct (unq fm 0 s) as [b r'] eqn:U'. apply pair_equal_spec in U. destruct U as [<- _]. apply in_app_or in I.
        destruct I as [I|[I|I]]; [apply repeat_spec in I; left; exact I|right; left; exact I|]. destruct (IH _ _ _ U' I) as [H|H]; [left; exact H|right; right; exact H].
  Qed.
  Lemma scan_space s : scan false s = scan false (trim s).
  Proof.
    induction s as [|c s IH]; [reflexivity|]. cbn [trim]. destruct (isspace c) eqn:E; [|reflexivity]. cbn [scan]. rewrite (SS c E), <- IH.
    assert (P : c =?c c_rparen = false) by (destruct (c =?c c_rparen) eqn:X; [apply eqc_true in X; subst; discriminate|reflexivity]). rewrite P. destruct (fm c); reflexivity.
  Qed.
  Lemma unq_rest s : forall n w r, unq fm n s = (w, Some r) -> exists u, s = u ++ r /\ length w <= n + length u /\ exists x r', r = x :: r' /\ fm x = true.
  Proof.
    induction s as [|c s IH]; intros n w r U; cbn [unq] in U; [discriminate|].
    destruct (c =?c c_bslash).
    - destruct (IH _ _ _ U) as (u & -> & L & X). exists (c :: u). split; [reflexivity|]. split; [cbn [length]; lia|exact X].
    - destruct (fm c) eqn:F.
      + destruct (Nat.even n).
        * apply pair_equal_spec in U. destruct U as [<- U]. injection U as <-. exists []. split; [reflexivity|]. split; [rewrite repeat_length; pose proof (Nat.div_le_upper_bound n 2 n); cbn [length]; lia|].
          exists c, s. split; [reflexivity|exact F].
        * destruct (unq fm 0 s) as [b r'] eqn:U'. apply pair_equal_spec in U. destruct U as [<- ->]. destruct (IH _ _ _ U') as (u & -> & L & X).
          exists (c :: u). split; [reflexivity|]. split; [|exact X]. rewrite app_length, repeat_length. pose proof (Nat.div_le_upper_bound n 2 n). cbn [length]. lia.
      + destruct (unq fm 0 s) as [b r'] eqn:U'. apply pair_equal_spec in U. destruct U as [<- ->]. destruct (IH _ _ _ U') as (u & -> & L & X).
        exists (c :: u). split; [reflexivity|]. split; [|exact X]. rewrite app_length, repeat_length. cbn [length]. lia.
  Qed.
  Lemma unq_none s : forall n w, unq fm n s = (w, None) -> length w <= n + length s.
  Proof.
    induction s as [|c s IH]; intros n w U; cbn [unq] in U; [injection U as <-; rewrite repeat_length; lia|].
    destruct (c =?c c_bslash); [specialize (IH _ _ U); cbn [length]; lia|].
    destruct (fm c); [destruct (Nat.even n); [discriminate|]|]; destruct (unq fm 0 s) as [b r'] eqn:U'; apply pair_equal_spec in U; destruct U as [<- ->]; specialize (IH _ _ U');
      rewrite app_length, repeat_length; pose proof (Nat.div_le_upper_bound n 2 n); cbn [length]; lia.
  Qed.

  (** reads *)
  Definition tail_of (r : option str) : str := match r with Some x => x | None => [] end.
  Lemma reads_scan t ws e : reads stop blank t ws e -> unquoted t -> scan false t = existsb ends_paren ws.
  Proof.
    induction 1 as [t T|t c r T ST|t c r w rest ws e T ST U R IH]; intros Q; rewrite scan_space, T.
    - reflexivity.
    - cbn [scan]. unfold fm. rewrite ST. reflexivity.
    - destruct (trim_split t) as (sp & E & _). rewrite T in E. rewrite E in Q. apply unquoted_app in Q.
      assert (F : fm c = false).
      { unfold fm. rewrite ST. destruct (blank c) eqn:B; [|reflexivity]. apply BB in B. apply trim_head in T. apply isblank_isspace in B. congruence. }
      rewrite (unq_scan _ 0 false w rest ltac:(lia) Q ltac:(lia) U). pose proof (unq_word c r w rest F U) as W. cbn [existsb].
      unfold ends'. destruct w as [|a w]; [congruence|]. f_equal. destruct rest as [x|].
      + apply IH. destruct (unq_rest _ _ _ _ U) as (u & EU & _). rewrite EU in Q. apply unquoted_app in Q. exact Q.
      + inversion R; [reflexivity|discriminate|discriminate].
  Qed.
  Lemma reads_scan_weak t ws e : reads stop blank t ws e -> scan false t = true -> existsb ends_paren ws = true.
  Proof.
    induction 1 as [t T|t c r T ST|t c r w rest ws e T ST U R IH]; intros Q; rewrite scan_space, T in Q.
    - discriminate.
    - cbn [scan] in Q. unfold fm in Q. rewrite ST in Q. discriminate.
    - assert (F : fm c = false).
      { unfold fm. rewrite ST. destruct (blank c) eqn:B; [|reflexivity]. apply BB in B. apply trim_head in T. apply isblank_isspace in B. congruence. }
      apply (unq_scan_weak _ 0 false w rest ltac:(lia) U) in Q. pose proof (unq_word c r w rest F U) as W. cbn [existsb].
      unfold ends' in Q. destruct w as [|a w]; [congruence|]. apply orb_true_iff in Q. apply orb_true_iff. destruct Q as [Q|Q]; [left; exact Q|right].
      destruct rest as [x|]; [apply IH; exact Q|discriminate].
  Qed.
  Lemma rest_shorter c r w rest : stop c = false -> isspace c = false -> unq fm 0 (c :: r) = (w, rest) -> length (tail_of rest) < length (c :: r) /\ length w + length (tail_of rest) <= length (c :: r).
  Proof.
    intros ST SPC U. assert (F : fm c = false).
    { unfold fm. rewrite ST. destruct (blank c) eqn:B; [|reflexivity]. apply BB in B. apply isblank_isspace in B. congruence. }
    pose proof (unq_word c r w rest F U) as W. destruct rest as [x|]; cbn [tail_of].
    - destruct (unq_rest _ _ _ _ U) as (u & E & L & _). rewrite E, app_length. destruct w; [congruence|]. cbn [length] in *. lia.
    - pose proof (unq_none _ _ _ U). cbn [length] in *. lia.
  Qed.
  Lemma reads_exists n : forall t, length t < n -> exists ws e, reads stop blank t ws e.
  Proof.
    induction n as [|n IH]; intros t L; [lia|]. destruct (trim t) as [|c r] eqn:T; [exists [], []; apply r_end; exact T|].
    destruct (stop c) eqn:ST; [exists [], (c :: r); apply r_stop; assumption|].
    destruct (unq fm 0 (c :: r)) as [w rest] eqn:U. pose proof (rest_shorter c r w rest ST (trim_head _ _ _ T) U) as [R _].
    pose proof (trim_length t) as TL. rewrite T in TL. destruct (IH (tail_of rest) ltac:(lia)) as (ws & e & X).
    exists (w :: ws), e. apply (r_word _ _ t c r w rest); assumption.
  Qed.
  Lemma reads_unique t ws e : reads stop blank t ws e -> forall ws' e', reads stop blank t ws' e' -> ws = ws' /\ e = e'.
  Proof.
    induction 1 as [t T|t c r T ST|t c r w rest ws e T ST U R IH]; intros ws' e' H; inversion H as [t' T'|t' c' r' T' ST'|t' c' r' w' rest' ws'' e'' T' ST' U' R']; subst.
    - split; reflexivity.
    - congruence.
    - congruence.
    - congruence.
    - rewrite T in T'. injection T' as -> ->. split; reflexivity.
    - rewrite T in T'. injection T' as -> ->. congruence.
    - congruence.
    - rewrite T in T'. injection T' as -> ->. congruence.
    - rewrite T in T'. injection T' as -> ->. rewrite U in U'. injection U' as -> ->. destruct (IH _ _ R') as [-> ->]. split; reflexivity.
  Qed.
End Scan.

(** "./" *)
Lemma undot_slashes s : undot true s = undot false (skip_slashes s).
Proof.
  induction s as [|a r IH]; [reflexivity|]. cbn [skip_slashes]. destruct (a =?c c_slash) eqn:E.
  - cbn [undot andb]. rewrite E. exact IH.
  - cbn [undot andb]. rewrite E. reflexivity.
Qed.
Lemma skip_slashes_length s : length (skip_slashes s) <= length s.
Proof. induction s as [|c s IH]; [reflexivity|]. cbn [skip_slashes]. destruct (c =?c c_slash); cbn [length]; lia. Qed.
Lemma strip_clean fuel : forall s, length s <= fuel -> or_dot (strip_dots fuel s) = clean s.
Proof.
  unfold clean. induction fuel as [|fuel IH]; intros s L.
  - destruct s; [reflexivity|cbn in L; lia].
  - destruct s as [|a [|b [|c r]]]; cbn [strip_dots].
    + reflexivity.
    + reflexivity.
    + cbn [undot andb]. destruct ((a =?c c_dot) && (b =?c c_slash)) eqn:E; [|reflexivity].
      apply andb_true_iff in E. destruct E as [E1 E2]. apply eqc_true in E1, E2. subst. reflexivity.
    + change (undot false (a :: b :: c :: r)) with (if (a =?c c_dot) && (b =?c c_slash) then undot true (c :: r) else a :: b :: c :: r).
      destruct ((a =?c c_dot) && (b =?c c_slash)); [|reflexivity]. rewrite undot_slashes. apply IH. pose proof (skip_slashes_length (c :: r)). cbn [length] in *. lia.
Qed.
Lemma undot_split s : forall b, exists u, s = u ++ undot b s /\ forallb (fun c => (c =?c c_dot) || (c =?c c_slash)) u = true.
Proof.
  remember (length s) as n eqn:N. assert (L : length s <= n) by lia. clear N. revert s L. induction n as [|n IH]; intros s L b.
  - destruct s; [exists []; split; reflexivity|cbn in L; lia].
  - destruct s as [|a r]; [exists []; split; reflexivity|]. cbn [undot]. destruct (b && (a =?c c_slash)) eqn:E.
    + apply andb_true_iff in E. destruct E as [_ E]. cbn [length] in L. destruct (IH r ltac:(lia) true) as (u & A & B). exists (a :: u). cbn [app forallb]. rewrite <- A, E, B, orb_true_r. split; reflexivity.
    + destruct r as [|b' r']; [exists []; split; reflexivity|]. destruct ((a =?c c_dot) && (b' =?c c_slash)) eqn:F; [|exists []; split; reflexivity].
      apply andb_true_iff in F. destruct F as [F1 F2]. cbn [length] in L. destruct (IH r' ltac:(lia) true) as (u & A & B). exists (a :: b' :: u). cbn [app forallb]. rewrite <- A, F1, F2, B, orb_true_r. split; reflexivity.
Qed.
Lemma clean_length w : w <> [] -> length (clean w) <= length w.
Proof.
  intros N. unfold clean. destruct (undot false w) as [|a r] eqn:E.
  - destruct w as [|a [|b w]]; [congruence|discriminate|cbn; lia].
  - destruct (undot_split w false) as (u & A & _). rewrite E in A. rewrite A, app_length. lia.
Qed.
Lemma clean_ends w : ends_paren (clean w) = ends_paren w.
Proof.
  unfold clean. destruct (undot_split w false) as (u & A & B). destruct (undot false w) as [|a r].
  - rewrite app_nil_r in A. subst u. change (ends_paren (s2l "./")) with false. unfold ends_paren. destruct (rev w) as [|c r] eqn:E; [reflexivity|].
    rewrite forallb_forall in B. assert (I : In c w) by (apply in_rev; rewrite E; left; reflexivity). specialize (B c I).
    destruct (c =?c c_rparen) eqn:F; [|reflexivity]. apply eqc_true in F. subst. discriminate.
  - rewrite A, ends_app_ne by discriminate. reflexivity.
Qed.
Lemma clean_ne w : clean w <> [].
Proof. unfold clean. destruct (undot false w); discriminate. Qed.

(** '(' *)
Lemma at_paren_spec w : match at_paren w with Some (a, b) => w = a ++ c_lparen :: b /\ ~ In c_lparen a | None => ~ In c_lparen w end.
Proof.
  induction w as [|c w IH]; [exact (fun H => H)|]. cbn [at_paren]. destruct (c =?c c_lparen) eqn:E.
  - apply eqc_true in E. subst. split; [reflexivity|exact (fun H => H)].
  - apply eqc_false in E. destruct (at_paren w) as [[a b]|].
    + destruct IH as [-> I]. split; [reflexivity|]. intros [H|H]; congruence.
    + intros [H|H]; congruence.
Qed.
Lemma at_paren_app a b : ~ In c_lparen a -> at_paren (a ++ c_lparen :: b) = Some (a, b).
Proof.
  induction a as [|c a IH]; intros N; [reflexivity|]. cbn [app at_paren].
  destruct (c =?c c_lparen) eqn:E; [apply eqc_true in E; subst; destruct N; left; reflexivity|]. rewrite IH; [reflexivity|]. intros H. apply N. right. exact H.
Qed.
Lemma exists_closing ws : existsb ends_paren ws = true <-> Exists closing ws.
Proof.
  rewrite existsb_exists, Exists_exists. split; intros (w & I & H); exists w; (split; [exact I|]); apply ends_closing; exact H.
Qed.

Section Loop.
  Variable stop : ascii -> bool.
  Variables oneword nostrip noar noglob exist nocache : bool.
  Variable prefix : option str.
  Variable tilde : str -> option str.
  Variable glob : str -> gres.
  Variable members : str -> str -> list str.
  Hypothesis SB : stop c_bslash = false.
  Hypothesis SP : stop c_rparen = false.
  Hypothesis SS : forall c, isspace c = true -> stop c = false.
  Let blank (c : ascii) : bool := negb oneword && isblank c.
  Lemma BBl : forall c, blank c = true -> isblank c = true.
  Proof. unfold blank. intros c H. apply andb_true_iff in H. exact (proj2 H). Qed.
  Notation emit' := (emit noar noglob exist nocache prefix tilde glob members).
  Notation loop := (seq_loop stop oneword nostrip noar noglob exist nocache prefix tilde glob members).
  Notation scan' := (scan stop blank).

  Lemma raw_scan e : forall pp w r, raw_word stop oneword e = (w, r) -> e = w ++ r /\ scan' pp e = ends' pp w || scan' false r /\ match r with [] => True | x :: _ => stop x || blank x = true end.
  Proof.
    induction e as [|c e IH]; intros pp w r H; cbn [raw_word] in H.
    - injection H as <- <-. cbn. rewrite orb_false_r. repeat split.
    - change (findmap stop oneword c) with (stop c || blank c) in H. destruct (stop c || blank c) eqn:F.
      + injection H as <- <-. split; [reflexivity|]. split; [|exact F]. cbn [ends' scan]. rewrite F. destruct pp; reflexivity.
      + destruct (raw_word stop oneword e) as [w' r'] eqn:R. injection H as <- <-. destruct (IH (c =?c c_rparen) w' r' eq_refl) as (A & B & C).
        split; [rewrite A; reflexivity|]. split; [|exact C]. cbn [scan]. rewrite F, B. unfold ends'. rewrite ends_cons. destruct w'; reflexivity.
  Qed.
  Lemma ahead_scan fuel : forall e, length e < fuel -> ahead stop oneword fuel e = scan' false e.
  Proof.
    induction fuel as [|fuel IH]; intros e L; [lia|]. cbn [ahead]. rewrite trim_next, (scan_space stop blank SS).
    pose proof (trim_length e) as TL. destruct (raw_word stop oneword (trim e)) as [w r] eqn:R. destruct (raw_scan (trim e) false w r R) as (A & B & C). rewrite B.
    destruct w as [|a w].
    - cbn [ends' orb app] in *. subst r. destruct (length (trim e) =? length e) eqn:E.
      + destruct (trim e) as [|c t] eqn:T; [reflexivity|]. pose proof (trim_head _ _ _ T) as H. cbn [scan].
        assert (X : stop c = true).
        { destruct (stop c); [reflexivity|]. cbn [orb] in C. apply BBl in C. apply isblank_isspace in C. congruence. }
        rewrite X. reflexivity.
      + apply Nat.eqb_neq in E. destruct (trim e) as [|c t] eqn:T; [reflexivity|]. apply IH. lia.
    - cbn [ends']. destruct (ends_paren (a :: w)); [reflexivity|]. cbn [orb]. destruct r as [|x r]; [reflexivity|]. apply IH.
      apply (f_equal (@length ascii)) in A. rewrite app_length in A. cbn [length] in *. lia.
  Qed.

  Definition cl (w : str) : str := if nostrip then w else clean w.
  Definition groups (ws ns : list str) : Prop := if noar then ns = ws else grouped ws ns.
  Fixpoint all (ns : list str) : option (list str) :=
    match ns with
    | [] => Some []
    | n :: ns' => match emit' n, all ns' with Some l, Some l' => Some (l ++ l') | _, _ => None end
    end.
  Definition fin (ns : list str) (rest : str) : outcome := match all ns with Some l => Names l rest | None => Fatal end.
  Lemma put_fin n ns rest : put (emit' n) (fin ns rest) = fin (n :: ns) rest.
  Proof. unfold fin, put. cbn [all]. destruct (emit' n); [|reflexivity]. destruct (all ns); reflexivity. Qed.
  Lemma cl_ne w : w <> [] -> cl w <> [].
  Proof. unfold cl. destruct nostrip; [auto|intros _; apply clean_ne]. Qed.
  Lemma cl_length w : w <> [] -> length (cl w) <= length w.
  Proof. unfold cl. destruct nostrip; [lia|apply clean_length]. Qed.
  Lemma cl_ends w : ends_paren (cl w) = ends_paren w.
  Proof. unfold cl. destruct nostrip; [reflexivity|apply clean_ends]. Qed.
  Lemma cl_model w : w <> [] -> or_dot (if nostrip then w else strip_dots (length w) w) = cl w.
  Proof. intros N. unfold cl. destruct nostrip; [destruct w; [congruence|reflexivity]|apply strip_clean; lia]. Qed.
  Lemma ends_cl ws : existsb ends_paren (map cl ws) = existsb ends_paren ws.
  Proof. induction ws as [|w ws IH]; [reflexivity|]. cbn [map existsb]. rewrite cl_ends, IH. reflexivity. Qed.

  Lemma cl_in x w : In x (cl w) -> In x w \/ x = c_dot \/ x = c_slash.
  Proof.
    unfold cl, clean. destruct nostrip; [auto|]. destruct (undot_split w false) as (u & A & _). destruct (undot false w) as [|a r].
    - intros [H|[H|[]]]; subst; auto.
    - intros H. left. rewrite A. apply in_or_app. right. exact H.
  Qed.
  Lemma loop_spec fuel size : forall p ws rest, length p < fuel -> length p < size -> reads stop blank p ws rest ->
    (unquoted stop p \/ Forall (fun w => ~ In c_lparen w) ws -> exists ns, groups (map cl ws) ns /\ loop fuel size [] p = fin ns rest) /\
    (forall lib, unquoted stop p -> noar = false -> existsb ends_paren ws = true -> length lib + 1 + length p < size ->
      exists ms z ws' ns, map cl ws = ms ++ (z ++ [c_rparen]) :: ws' /\ Forall (fun w => ~ closing w) ms /\ grouped ws' ns /\
        loop fuel size (lib ++ [c_lparen]) p = fin (map (fun x => lib ++ c_lparen :: x ++ [c_rparen]) (filter nonempty (ms ++ [z])) ++ ns) rest).
  Proof.
    induction fuel as [|fuel IH]; intros p ws rest L1 L2 R; [lia|].
    destruct R as [p T|p c t T ST|p c t w r ws rest T ST U R].
    - split; [|intros ? ? ? H; discriminate]. intros _. exists []. split; [unfold groups; destruct noar; [reflexivity|constructor]|]. cbn [seq_loop]. rewrite trim_next, T. reflexivity.
    - split; [|intros ? ? ? H; discriminate]. intros _. exists []. split; [unfold groups; destruct noar; [reflexivity|constructor]|]. cbn [seq_loop]. rewrite trim_next, T, ST. reflexivity.
    - pose proof (trim_length p) as TL. rewrite T in TL. pose proof (trim_head _ _ _ T) as SC.
      destruct (rest_shorter stop blank BBl c t w r ST SC U) as [RL WL].
      assert (F : stop c || blank c = false).
      { rewrite ST. destruct (blank c) eqn:B; [|reflexivity]. apply BBl in B. apply isblank_isspace in B. congruence. }
      pose proof (unq_word stop blank c t w r F U) as W.
      destruct (trim_split p) as (sp & E & _). rewrite T in E. assert (Q1 : unquoted stop p -> unquoted stop (c :: t)) by (intros Q; rewrite E in Q; exact (unquoted_app stop _ _ Q)).
      assert (Q2 : unquoted stop p -> unquoted stop (tail_of r)).
      { intros Q. apply Q1 in Q. destruct r as [x|]; [|intros a y b H; destruct a; discriminate]. destruct (unq_rest stop blank _ _ _ _ U) as (u & EU & _). rewrite EU in Q. exact (unquoted_app stop _ _ Q). }
      change (match r with Some x => x | None => [] end) with (tail_of r) in R.
      destruct (IH (tail_of r) ws rest ltac:(lia) ltac:(lia) R) as [IH1 IH2].
      assert (STEP : forall grp, loop (S fuel) size grp p =
        (if size <? S (length grp + length (cl w)) then Overrun
         else
           let opened :=
             match grp with
             | [] => if noar || starts_with c_lparen (cl w) || ends_paren (cl w) then None
                     else match at_paren (cl w) with Some (a, b) => if scan' false (tail_of r) then Some (a ++ [c_lparen], b) else None | None => None end
             | _ :: _ => None
             end in
           let '(grp, w) := match opened with Some x => x | None => (grp, cl w) end in
           match w with
           | [] => loop fuel size grp (tail_of r)
           | _ :: _ =>
               match grp with
               | [] => put (emit' w) (loop fuel size [] (tail_of r))
               | _ :: _ =>
                   if ends_paren w then
                     if length w =? 1 then loop fuel size [] (tail_of r) else put (emit' (grp ++ w)) (loop fuel size [] (tail_of r))
                   else if size <? S (S (length grp + length w)) then Overrun
                   else put (emit' (grp ++ w ++ [c_rparen])) (loop fuel size grp (tail_of r))
               end
           end)).
      { intros grp. cbn [seq_loop]. rewrite trim_next, T, ST.
        assert (FU : find_map_unquote (findmap stop oneword) false (c :: t) = Some (mkfound w r)).
        { rewrite find_map_unquote_spec; [|unfold findmap; rewrite SB; destruct oneword; reflexivity|discriminate].
          change (unq (findmap stop oneword) 0 (c :: t)) with (unq (fun x => stop x || blank x) 0 (c :: t)). rewrite U. reflexivity. }
        rewrite FU. cbn [f_rest f_before]. change (match r with Some x => x | None => [] end) with (tail_of r).
        cbv zeta. rewrite (cl_model w W).
        rewrite (ahead_scan (S (length (tail_of r))) (tail_of r)) by lia. reflexivity. }
      assert (SCN : unquoted stop p -> scan' false (tail_of r) = existsb ends_paren ws) by (intros Q; exact (reads_scan stop blank SB SS BBl _ _ _ R (Q2 Q))).
      pose proof (cl_length w W) as CL. pose proof (cl_ne w W) as CN.
      split.
      + intros Q. rewrite STEP. destruct (size <? S (length (@nil ascii) + length (cl w))) eqn:SZ; [apply Nat.ltb_lt in SZ; cbn [length] in SZ; lia|]. cbv zeta.
        destruct IH1 as (ns & G & LP); [destruct Q as [Q|Q]; [left; exact (Q2 Q)|right; inversion Q; assumption]|].
        assert (PLAIN : (noar = false -> ~ (opening (cl w) /\ Exists closing (map cl ws))) ->
          exists ns', groups (map cl (w :: ws)) ns' /\ match cl w with [] => loop fuel size [] (tail_of r) | _ :: _ => put (emit' (cl w)) (loop fuel size [] (tail_of r)) end = fin ns' rest).
        { intros H. exists (cl w :: ns). split; [unfold groups in *; cbn [map]; destruct noar; [rewrite G; reflexivity|apply g_plain; [apply H; reflexivity|exact G]]|].
          destruct (cl w) as [|a b]; [congruence|]. rewrite LP. apply put_fin. }
        destruct (noar || starts_with c_lparen (cl w) || ends_paren (cl w)) eqn:O.
        { apply PLAIN. intros NA [(lib & m & E1 & E2 & E3 & E4) _]. rewrite NA in O. cbn [orb] in O. apply orb_true_iff in O. destruct O as [O|O].
          - rewrite E1 in O. destruct lib as [|x lib]; [congruence|]. cbn in O. apply eqc_true in O. subst. apply E3. left. reflexivity.
          - apply E4. apply ends_closing. exact O. }
        pose proof (at_paren_spec (cl w)) as AP. destruct (at_paren (cl w)) as [[a b]|].
        2: { apply PLAIN. intros _ [(lib & m & E1 & _) _]. apply AP. rewrite E1. apply in_or_app. right. left. reflexivity. }
        destruct AP as [AP1 AP2].
        destruct Q as [Q|Q].
        2: { exfalso. assert (I : In c_lparen (cl w)) by (rewrite AP1; apply in_or_app; right; left; reflexivity). apply cl_in in I. destruct I as [I|[I|I]]; try discriminate. inversion Q; contradiction. }
        specialize (SCN Q). specialize (Q2 Q). rewrite SCN. destruct (existsb ends_paren ws) eqn:EX.
        2: { apply PLAIN. intros _ [_ X]. apply exists_closing in X. rewrite ends_cl in X. congruence. }
        apply orb_false_iff in O. destruct O as [O O3]. apply orb_false_iff in O. destruct O as [O1 O2].
        assert (NE : tail_of r <> []).
        { intros Z. rewrite Z in SCN. cbn in SCN. congruence. }
        assert (LN : 1 <= length (tail_of r)) by (destruct (tail_of r); [congruence|cbn; lia]).
        assert (LW : length (cl w) = length a + 1 + length b) by (rewrite AP1, app_length; cbn [length]; lia).
        destruct (IH2 a Q2 O1 eq_refl ltac:(lia)) as (ms & z & ws' & ns' & M1 & M2 & M3 & M4).
        assert (AN : a <> []) by (intros ->; rewrite AP1 in O2; discriminate).
        assert (NC : ~ closing (a ++ c_lparen :: b)) by (rewrite <- AP1; intros X; apply ends_closing in X; congruence).
        exists (map (fun x => a ++ c_lparen :: x ++ [c_rparen]) (filter nonempty (b :: ms ++ [z])) ++ ns'). split.
        { unfold groups. rewrite O1. cbn [map]. rewrite AP1, M1. apply g_group; assumption. }
        destruct b as [|b0 b].
        * cbn [filter nonempty]. exact M4.
        * destruct (a ++ [c_lparen]) as [|g0 g] eqn:GE; [destruct a; discriminate|]. rewrite <- GE in *.
          assert (EB : ends_paren (b0 :: b) = false).
          { rewrite AP1 in O3. rewrite ends_app_ne in O3 by discriminate. rewrite ends_cons in O3. exact O3. }
          rewrite EB. destruct (size <? S (S (length (a ++ [c_lparen]) + length (b0 :: b)))) eqn:SZ2; [apply Nat.ltb_lt in SZ2; rewrite app_length in SZ2; cbn [length] in *; lia|].
          rewrite M4. cbn [filter nonempty map app]. rewrite <- app_assoc. cbn [app]. apply put_fin.
      + intros lib Q NA EX SZL. specialize (SCN Q). specialize (Q2 Q). rewrite STEP. rewrite app_length. cbn [length].
        destruct (size <? S (length lib + 1 + length (cl w))) eqn:SZ; [apply Nat.ltb_lt in SZ; lia|]. cbv zeta.
        destruct (lib ++ [c_lparen]) as [|g0 g] eqn:GE; [destruct lib; discriminate|]. rewrite <- GE in *.
        assert (ME : forall A B : outcome, match cl w with [] => A | _ :: _ => B end = B) by (intros; destruct (cl w); [congruence|reflexivity]). rewrite ME. clear ME.
        destruct (ends_paren (cl w)) eqn:EP.
        * destruct (IH1 (or_introl Q2)) as (ns & G & LP). unfold groups in G. rewrite NA in G. pose proof EP as EP'. apply ends_closing in EP'. destruct EP' as [z Z].
          exists [], z, (map cl ws), ns. split; [cbn [map app]; rewrite Z; reflexivity|]. split; [constructor|]. split; [exact G|].
          cbn [app]. destruct (length (cl w) =? 1) eqn:LE.
          -- apply Nat.eqb_eq in LE. rewrite Z, app_length in LE. cbn [length] in LE. destruct z; [|cbn in LE; lia]. exact LP.
          -- apply Nat.eqb_neq in LE. rewrite Z, app_length in LE. cbn [length] in LE. destruct z as [|z0 z]; [cbn in LE; lia|]. rewrite LP. cbn [filter nonempty map app].
             rewrite Z, <- app_assoc. cbn [app]. apply put_fin.
        * assert (EX' : existsb ends_paren ws = true) by (cbn [existsb] in EX; rewrite <- cl_ends, EP in EX; exact EX).
          assert (NE : tail_of r <> []) by (intros Z; rewrite Z in SCN; cbn in SCN; congruence).
          assert (LN : 1 <= length (tail_of r)) by (destruct (tail_of r); [congruence|cbn; lia]).
          destruct (size <? S (S (length (lib ++ [c_lparen]) + length (cl w)))) eqn:SZ2; [apply Nat.ltb_lt in SZ2; rewrite app_length in SZ2; cbn [length] in SZ2; lia|].
          destruct (IH2 lib Q2 NA EX' ltac:(lia)) as (ms & z & ws' & ns' & M1 & M2 & M3 & M4).
          exists (cl w :: ms), z, ws', ns'. split; [cbn [map app]; rewrite M1; reflexivity|]. split; [constructor; [intros X; apply ends_closing in X; congruence|exact M2]|].
          split; [exact M3|]. rewrite M4. cbn [app filter]. assert (NW : nonempty (cl w) = true) by (destruct (cl w); [congruence|reflexivity]). rewrite NW. cbn [map app]. rewrite <- app_assoc. cbn [app]. apply put_fin.
  Qed.

  (** The buffer is large enough, whatever the text. *)
  Definition fine (o : outcome) : Prop := o <> Overrun /\ o <> NoFuel.
  Lemma put_fine x o : fine o -> fine (put x o).
  Proof. intros [A B]. unfold put. destruct x; [destruct o; split; congruence|split; discriminate]. Qed.
  Lemma loop_fine fuel size : forall p ws rest, length p < fuel -> length p < size -> reads stop blank p ws rest ->
    fine (loop fuel size [] p) /\
    (forall g, g <> [] -> existsb ends_paren ws = true -> length g + length p < size -> fine (loop fuel size g p)).
  Proof.
    induction fuel as [|fuel IH]; intros p ws rest L1 L2 R; [lia|].
    destruct R as [p T|p c t T ST|p c t w r ws rest T ST U R].
    - split; [|intros ? ? H; discriminate]. cbn [seq_loop]. rewrite trim_next, T. split; discriminate.
    - split; [|intros ? ? H; discriminate]. cbn [seq_loop]. rewrite trim_next, T, ST. split; discriminate.
    - pose proof (trim_length p) as TL. rewrite T in TL. pose proof (trim_head _ _ _ T) as SC.
      destruct (rest_shorter stop blank BBl c t w r ST SC U) as [RL WL].
      assert (F : stop c || blank c = false).
      { rewrite ST. destruct (blank c) eqn:B; [|reflexivity]. apply BBl in B. apply isblank_isspace in B. congruence. }
      pose proof (unq_word stop blank c t w r F U) as W.
      change (match r with Some x => x | None => [] end) with (tail_of r) in R.
      destruct (IH (tail_of r) ws rest ltac:(lia) ltac:(lia) R) as [IH1 IH2].
      assert (FU : find_map_unquote (findmap stop oneword) false (c :: t) = Some (mkfound w r)).
      { rewrite find_map_unquote_spec; [|unfold findmap; rewrite SB; destruct oneword; reflexivity|discriminate].
        change (unq (findmap stop oneword) 0 (c :: t)) with (unq (fun x => stop x || blank x) 0 (c :: t)). rewrite U. reflexivity. }
      pose proof (cl_length w W) as CL. pose proof (cl_ne w W) as CN.
      assert (NE : existsb ends_paren ws = true -> 1 <= length (tail_of r)).
      { intros H. destruct (tail_of r) as [|x y]; [|cbn; lia]. inversion R; subst; [discriminate|discriminate|]. match goal with H : trim [] = _ |- _ => discriminate H end. }
      split.
      + cbn [seq_loop]. rewrite trim_next, T, ST, FU. cbn [f_rest f_before]. change (match r with Some x => x | None => [] end) with (tail_of r).
        cbv zeta. rewrite (cl_model w W), (ahead_scan (S (length (tail_of r))) (tail_of r)) by lia.
        destruct (size <? S (length (@nil ascii) + length (cl w))) eqn:SZ; [apply Nat.ltb_lt in SZ; cbn [length] in SZ; lia|].
        assert (PLAIN : fine (match cl w with [] => loop fuel size [] (tail_of r) | _ :: _ => put (emit' (cl w)) (loop fuel size [] (tail_of r)) end)).
        { destruct (cl w); [exact IH1|apply put_fine; exact IH1]. }
        destruct (noar || starts_with c_lparen (cl w) || ends_paren (cl w)) eqn:O; [exact PLAIN|].
        pose proof (at_paren_spec (cl w)) as AP. destruct (at_paren (cl w)) as [[a b]|]; [|exact PLAIN].
        destruct (scan' false (tail_of r)) eqn:SCN; [|exact PLAIN]. destruct AP as [AP1 AP2].
        pose proof (reads_scan_weak stop blank SB SS BBl _ _ _ R SCN) as EX. specialize (NE EX).
        assert (LW : length (cl w) = length a + 1 + length b) by (rewrite AP1, app_length; cbn [length]; lia).
        assert (G : fine (loop fuel size (a ++ [c_lparen]) (tail_of r))).
        { apply IH2; [destruct a; discriminate|exact EX|rewrite app_length; cbn [length]; lia]. }
        destruct b as [|b0 b]; [exact G|]. destruct (a ++ [c_lparen]) as [|g0 g] eqn:GE; [destruct a; discriminate|]. rewrite <- GE in *.
        destruct (ends_paren (b0 :: b)).
        * destruct (length (b0 :: b) =? 1); [exact IH1|apply put_fine; exact IH1].
        * destruct (size <? S (S (length (a ++ [c_lparen]) + length (b0 :: b)))) eqn:SZ2; [apply Nat.ltb_lt in SZ2; rewrite app_length in SZ2; cbn [length] in *; lia|].
          apply put_fine. exact G.
      + intros g GN EX SZL. cbn [seq_loop]. rewrite trim_next, T, ST, FU. cbn [f_rest f_before]. change (match r with Some x => x | None => [] end) with (tail_of r).
        cbv zeta. rewrite (cl_model w W).
        destruct (size <? S (length g + length (cl w))) eqn:SZ; [apply Nat.ltb_lt in SZ; lia|].
        destruct g as [|g0 g]; [congruence|].
        assert (ME : forall A B : outcome, match cl w with [] => A | _ :: _ => B end = B) by (intros; destruct (cl w); [congruence|reflexivity]). rewrite ME. clear ME.
        destruct (ends_paren (cl w)) eqn:EP.
        * destruct (length (cl w) =? 1); [exact IH1|apply put_fine; exact IH1].
        * cbn [existsb] in EX. rewrite <- cl_ends, EP in EX. specialize (NE EX). destruct (size <? S (S (length (g0 :: g) + length (cl w)))) eqn:SZ2; [apply Nat.ltb_lt in SZ2; lia|].
          apply put_fine. apply IH2; [discriminate|exact EX|lia].
  Qed.
End Loop.

(** grouped is a function *)
Lemma open_unique lib m lib' m' : ~ In c_lparen lib -> ~ In c_lparen lib' -> lib ++ c_lparen :: m = lib' ++ c_lparen :: m' -> lib = lib' /\ m = m'.
Proof. intros A B E. pose proof (at_paren_app lib m A) as X. rewrite E, (at_paren_app lib' m' B) in X. injection X as -> ->. split; reflexivity. Qed.
Lemma first_closing ms : forall z (ws : list str) ms' z' ws', Forall (fun w => ~ closing w) ms -> Forall (fun w => ~ closing w) ms' ->
  ms ++ (z ++ [c_rparen]) :: ws = ms' ++ (z' ++ [c_rparen]) :: ws' -> ms = ms' /\ z = z' /\ ws = ws'.
Proof.
  induction ms as [|m ms IH]; intros z ws ms' z' ws' F F' E; destruct ms' as [|m' ms']; cbn [app] in E; pose proof (f_equal (hd []) E) as E1; pose proof (f_equal (@tl str) E) as E2; cbn [hd tl] in E1, E2; clear E.
  - apply app_inj_tail in E1. destruct E1 as [-> _]. subst. repeat split.
  - inversion F'; subst. exfalso. match goal with H : ~ closing (z ++ _) |- _ => apply H; exists z; reflexivity end.
  - inversion F; subst. exfalso. match goal with H : ~ closing (z' ++ _) |- _ => apply H; exists z'; reflexivity end.
  - inversion F; inversion F'; subst. destruct (IH _ _ _ _ _ ltac:(eassumption) ltac:(eassumption) E2) as (-> & -> & ->). repeat split.
Qed.
Lemma grouped_unique ws ns : grouped ws ns -> forall ns', grouped ws ns' -> ns = ns'.
Proof.
  induction 1 as [|w ws ns N G IH|lib m ms z ws ns L I C F G IH]; intros ns' H.
  - inversion H. reflexivity.
  - inversion H as [|w' ws' ns'' N' G'|lib m ms z ws' ns'' L I C F G']; subst; [f_equal; apply IH; assumption|].
    exfalso. apply N. split; [exists lib, m; repeat split; assumption|]. apply Exists_exists. exists (z ++ [c_rparen]). split; [apply in_or_app; right; left; reflexivity|exists z; reflexivity].
  - inversion H as [|w' ws' ns'' N' G'|lib' m' ms' z' ws' ns'' L' I' C' F' G']; subst.
    + exfalso. apply N'. split; [exists lib, m; repeat split; assumption|]. apply Exists_exists. exists (z ++ [c_rparen]). split; [apply in_or_app; right; left; reflexivity|exists z; reflexivity].
    + match goal with X : lib' ++ c_lparen :: m' = _ |- _ => rename X into E1 end. match goal with X : ms' ++ _ = ms ++ _ |- _ => rename X into E2 end. destruct (open_unique _ _ _ _ I' I E1) as [-> ->]. destruct (first_closing _ _ _ _ _ _ F' F E2) as (-> & -> & ->). rewrite (IH _ G'). reflexivity.
Qed.
