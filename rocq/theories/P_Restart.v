From Coq Require Import Lia.
From Verif Require Import Base M_Text M_Var M_Expand M_Def M_Flags M_Restart S_Restart.
Open Scope string_scope.
Open Scope list_scope.
Open Scope nat_scope.

(** ** The words *)
Lemma starts_with_iff p w : starts_with p w = true <-> exists s, w = p ++ s.
Proof.
  revert w. induction p as [| x p IH]; intros [| y w]; cbn [starts_with app]; split; try discriminate; eauto.
  - intros (s & H). discriminate.
  - rewrite andb_true_iff, IH. intros [A (s & ->)]. apply eqc_true in A. subst. eauto.
  - intros (s & H). injection H as -> ->. rewrite andb_true_iff, eqc_refl, IH. eauto.
Qed.
Lemma starts_with_f w : starts_with dash_f w = true <-> exists s, w = s2l "-f" ++ s.
Proof. apply starts_with_iff. Qed.
Lemma not_f_false w : not_f w -> starts_with dash_f w = false.
Proof. intros N. destruct (starts_with dash_f w) eqn:E; auto. apply starts_with_f in E. destruct E as (s & ->). destruct (N s eq_refl). Qed.
Lemma no_dash_f w : no_dash w -> not_f w.
Proof. intros [-> | N] s H; [discriminate|]. apply (N (s2l "f" ++ s)). exact H. Qed.
Lemma takes_f w b : takes w = Some b -> not_f w.
Proof. intros T s ->. discriminate T. Qed.
Lemma takes_dash w b : takes w = Some b -> ~ no_dash w.
Proof.
  intros T [-> | N]; [discriminate T|]. destruct w as [| a [| c r]]; try discriminate. unfold takes in T. destruct (a =?c c_minus) eqn:A; [|discriminate]. apply eqc_true in A. subst. apply (N (c :: r)). reflexivity.
Qed.

(** ** The loop over argv *)
Lemma refile_other names ws : Forall not_f ws -> refile names ws = Some (map Some ws).
Proof. induction 1 as [| w ws N F IH]; auto. cbn [refile map]. rewrite not_f_false, IH by auto. reflexivity. Qed.
Lemma renamed_other ws : Forall not_f ws -> renamed ws [] ws.
Proof. induction 1; constructor; auto. Qed.
Lemma refile_spec ws fs : aligned ws fs -> forall names tail, length names = length fs ->
  exists ws', refile (map Some names ++ tail) ws = Some (map Some ws') /\ renamed ws names ws'.
Proof.
  induction 1 as [| w ws fs N A IH | ws N | n ws fs A IH | n ws fs NE A IH | w ws fs T A IH | w a ws fs T N A IH]; intros names tail L.
  - destruct names; [|discriminate]. exists []. split; constructor.
  - destruct (IH names tail L) as (ws' & R & RN). exists (w :: ws'). cbn [refile]. rewrite not_f_false, R by (apply no_dash_f, N). split; [reflexivity|]. constructor; auto using no_dash_f.
  - destruct names; [|discriminate]. exists (s2l "--" :: ws). cbn [refile map app]. rewrite not_f_false, refile_other by (auto; intros s H; discriminate). split; [reflexivity|]. constructor; [intros s H; discriminate|apply renamed_other; auto].
  - destruct names as [| m names]; [discriminate|]. injection L as L. destruct (IH names tail L) as (ws' & R & RN). exists (s2l "-f" :: m :: ws'). cbn [map app refile]. change (starts_with dash_f (s2l "-f")) with true. cbn iota. change (skipn 2 (s2l "-f")) with (@nil ascii). cbn iota. rewrite R. split; [reflexivity|]. apply rn_file; auto.
  - destruct names as [| m names]; [discriminate|]. injection L as L. destruct (IH names tail L) as (ws' & R & RN). exists ((s2l "-f" ++ m) :: ws'). cbn [map app refile]. replace (starts_with dash_f (s2l "-f" ++ n)) with true by (symmetry; apply starts_with_f; eauto). change (skipn 2 (s2l "-f" ++ n)) with n. destruct n as [| c n]; [congruence|]. rewrite R. split; [reflexivity|]. apply rn_joined; auto.
  - destruct (IH names tail L) as (ws' & R & RN). exists (w :: ws'). pose proof (takes_f _ _ T). cbn [refile]. rewrite not_f_false, R by auto. split; [reflexivity|]. constructor; auto.
  - destruct (IH names tail L) as (ws' & R & RN). exists (w :: a :: ws'). pose proof (takes_f _ _ T). cbn [refile]. rewrite !not_f_false, R by auto. split; [reflexivity|]. constructor; auto. constructor; auto.
Qed.
Lemma until_map l : until_null (map Some l) = l.
Proof. induction l as [| w l IH]; cbn; congruence. Qed.
Lemma renamed_length ws names ws' : renamed ws names ws' -> length ws = length ws'.
Proof. induction 1; cbn; lia. Qed.

(** ** Reading the words *)
Section Decode.
  Variable D : Type.
  Variable atof : str -> D.
  Variable minus_one : D.
  Variable tilde : str -> option str.
  Notation dstate := (dstate D).
  Notation decode_loop := (decode_loop D atof minus_one tilde false).
  Notation cluster := (cluster D atof minus_one tilde false).
  Notation long_opt := (long_opt D atof minus_one tilde false).
  Notation apply_switch := (apply_switch D atof minus_one tilde false).

  Definition mk (d : dstate) : list str := as_list D (d_opts D d "makefiles").
  (** The same but for the makefiles. *)
  Definition sim (d e : dstate) : Prop := d_args D d = d_args D e /\ forall p, p <> "makefiles" -> d_opts D d p = d_opts D e p.
  Lemma sim_set d e p v : sim d e -> p <> "makefiles" -> sim (set_d D d p v) (set_d D e p v) /\ mk (set_d D d p v) = mk d /\ mk (set_d D e p v) = mk e.
  Proof.
    intros [A B] N. assert (E : String.eqb "makefiles" p = false) by (apply String.eqb_neq; congruence). unfold sim, mk, set_d, set_opt. cbn [d_args d_opts]. rewrite E.
    split; [split; [exact A|]|split; reflexivity]. intros q Q. destruct (String.eqb q p); auto.
  Qed.
  (** A word is treated alike by both: it is the same, or both begin with a dash. *)
  Definition alike (ws ws2 : list str) : Prop :=
    match ws, ws2 with [], [] => True | w :: _, w2 :: _ => w = w2 \/ (exists s s2, w = c_minus :: s /\ w2 = c_minus :: s2) | _, _ => False end.
  Definition step_like (ws ws2 : list str) (d e d' : dstate) (ws' : list str) (r : option (dstate * list str)) : Prop :=
    exists e', sim d' e' /\ mk d' = mk d /\ mk e' = mk e /\
      ((ws' = ws /\ r = Some (e', ws2)) \/ (exists w r2, ws = w :: ws' /\ ws2 = w :: r2 /\ no_dash w /\ r = Some (e', r2))).
  Lemma digit_word w : forallb is_digit w = true -> no_dash w.
  Proof. intros H. right. intros s ->. discriminate H. Qed.
  Lemma apply_like cs arg ws ws2 d e d' ws' : sw_ptr cs <> "makefiles" -> alike ws ws2 -> sim d e -> apply_switch cs arg ws d = Some (d', ws') -> step_like ws ws2 d e d' ws' (apply_switch cs arg ws2 e).
  Proof.
    intros P AL S H. pose proof (fun v => sim_set d e (sw_ptr cs) v S P) as SET. assert (OPT : d_opts D d (sw_ptr cs) = d_opts D e (sw_ptr cs)) by (apply S; auto).
    unfold M_Flags.apply_switch, bad in *. cbn [negb orb] in *. destruct (sw_type cs) eqn:T.
    - injection H as <- <-. eexists. destruct (SET (VInt D 1)) as (X & Y & Z). split; [exact X|]. split; [exact Y|]. split; [exact Z|]. left. auto.
    - injection H as <- <-. eexists. destruct (SET (VInt D 0)) as (X & Y & Z). split; [exact X|]. split; [exact Y|]. split; [exact Z|]. left. auto.
    - destruct (match arg with Some a => Some a | None => _ end) as [[| c a]|] eqn:E; [destruct arg; discriminate| |discriminate]. injection H as <- <-. eexists. edestruct SET as (X & Y & Z). split; [exact X|]. split; [exact Y|]. split; [exact Z|]. left. auto.
    - destruct (match arg with Some a => Some a | None => _ end) as [[| c a]|] eqn:E; [destruct arg; discriminate| |discriminate]. injection H as <- <-. rewrite OPT. eexists. edestruct SET as (X & Y & Z). split; [exact X|]. split; [exact Y|]. split; [exact Z|]. left. auto.
    - destruct (match arg with Some a => Some a | None => _ end) as [[| c a]|] eqn:E; [destruct arg; discriminate| |discriminate]. destruct (expand_command_line_file _ _); [|discriminate]. injection H as <- <-. rewrite OPT. eexists. edestruct SET as (X & Y & Z). split; [exact X|]. split; [exact Y|]. split; [exact Z|]. left. auto.
    - assert (X : forall a w1 w2, (if forallb is_digit a then let i := digits_value a in if (INT_MAX <? i)%Z then None else if (i <? 1)%Z then None else Some (set_d D d (sw_ptr cs) (VInt D i), w1) else None) = Some (d', ws') ->
        ws' = w1 /\ exists e', sim d' e' /\ mk d' = mk d /\ mk e' = mk e /\ (if forallb is_digit a then let i := digits_value a in if (INT_MAX <? i)%Z then None else if (i <? 1)%Z then None else Some (set_d D e (sw_ptr cs) (VInt D i), w2) else None) = Some (e', w2 : list str)).
      { intros a w1 w2 K. destruct (forallb is_digit a); [|discriminate]. cbn zeta in *. destruct (INT_MAX <? digits_value a)%Z; [discriminate|]. destruct (digits_value a <? 1)%Z; [discriminate|]. injection K as <- <-. split; auto. eexists. edestruct SET as (X & Y & Z). split; [exact X|]. split; [exact Y|]. split; [exact Z|]. reflexivity. }
      destruct arg as [a|].
      + destruct (X a ws ws2 H) as (-> & e' & A & B & C & E). exists e'. split; [exact A|]. split; [exact B|]. split; [exact C|]. left. auto.
      + assert (Y : forall w1 w2, match sw_noarg cs with c_int z => Some (set_d D d (sw_ptr cs) (VInt D z), w1) | _ => None end = Some (d', ws') ->
          ws' = w1 /\ exists e', sim d' e' /\ mk d' = mk d /\ mk e' = mk e /\ match sw_noarg cs with c_int z => Some (set_d D e (sw_ptr cs) (VInt D z), w2) | _ => None end = Some (e', w2 : list str)).
        { intros w1 w2 K. destruct (sw_noarg cs); try discriminate. injection K as <- <-. split; auto. eexists. edestruct SET as (X1 & Y1 & Z1). split; [exact X1|]. split; [exact Y1|]. split; [exact Z1|]. reflexivity. }
        destruct ws as [| w ws], ws2 as [| w2 ws2]; cbn in AL; try contradiction.
        * destruct (Y [] [] H) as (-> & e' & A & B & C & E). exists e'. split; [exact A|]. split; [exact B|]. split; [exact C|]. left. auto.
        * destruct AL as [<- | (s & s2 & -> & ->)].
          -- destruct (forallb is_digit w) eqn:DW.
             ++ destruct (X w ws ws2) as (-> & e' & A & B & C & E); [rewrite DW in *; exact H|]. exists e'. split; [exact A|]. split; [exact B|]. split; [exact C|]. right. exists w, ws2. rewrite DW in E. split; [reflexivity|]. split; [reflexivity|]. split; [apply digit_word, DW|]. cbn iota. rewrite ?DW. exact E.
             ++ destruct (Y _ (w :: ws2) H) as (-> & e' & A & B & C & E). exists e'. split; [exact A|]. split; [exact B|]. split; [exact C|]. left. auto.
          -- cbn [forallb] in *. change (is_digit c_minus) with false in *. cbn [andb] in *. destruct (Y _ ((c_minus :: s2) :: ws2) H) as (-> & e' & A & B & C & E). exists e'. split; [exact A|]. split; [exact B|]. split; [exact C|]. left. auto.
    - destruct arg as [a|].
      + injection H as <- <-. eexists. edestruct SET as (X & Y & Z). split; [exact X|]. split; [exact Y|]. split; [exact Z|]. left. auto.
      + destruct ws as [| w ws], ws2 as [| w2 ws2]; cbn in AL; try contradiction.
        * injection H as <- <-. eexists. edestruct SET as (X & Y & Z). split; [exact X|]. split; [exact Y|]. split; [exact Z|]. left. auto.
        * destruct AL as [<- | (s & s2 & -> & ->)].
          -- destruct w as [| c w]; [injection H as <- <-; eexists; edestruct SET as (X & Y & Z); split; [exact X|]; split; [exact Y|]; split; [exact Z|]; left; auto|].
             destruct (is_digit c || (c =?c c_dot)) eqn:DC; injection H as <- <-; eexists; edestruct SET as (X & Y & Z); (split; [exact X|]; split; [exact Y|]; split; [exact Z|]); [right|left; auto].
             exists (c :: w), ws2. split; auto. split; auto. split; auto. right. intros s E. injection E as -> ->. discriminate DC.
          -- change (is_digit c_minus || (c_minus =?c c_dot)) with false in *. cbn iota in *. injection H as <- <-. eexists. edestruct SET as (X & Y & Z). split; [exact X|]. split; [exact Y|]. split; [exact Z|]. left. auto.
    - injection H as <- <-. exists e. split; [exact S|]. split; [reflexivity|]. split; [reflexivity|]. left. auto.
  Qed.

  Lemma ptr_ok c s : find_switch c = Some s -> c <> ch "f" -> sw_ptr s <> "makefiles".
  Proof.
    intros F N E. unfold find_switch in F. apply find_some in F. destruct F as [I C]. apply Nat.eqb_eq in C. subst c.
    assert (X : forallb (fun s => negb (String.eqb (sw_ptr s) "makefiles") || (sw_c s =? ch "f")) switches = true) by (vm_compute; reflexivity).
    rewrite forallb_forall in X. specialize (X s I). rewrite E in X. cbn [negb orb] in X. apply Nat.eqb_eq in X. congruence.
  Qed.
  Lemma short_ptr c s : find_short c = Some s -> (c =?c "f"%char) = false -> sw_ptr s <> "makefiles".
  Proof. intros F N. apply (ptr_ok (ch c)); auto. intros E. apply eqc_false in N. apply N. unfold ch in E. rewrite <- (ascii_nat_embedding c), <- (ascii_nat_embedding "f"%char). congruence. Qed.

  Lemma step_after ws ws2 d e d1 e1 d' ws' r : mk d1 = mk d -> mk e1 = mk e -> step_like ws ws2 d1 e1 d' ws' r -> step_like ws ws2 d e d' ws' r.
  Proof. intros A B (e' & S & C & E & F). exists e'. split; auto. split; [congruence|]. split; [congruence|auto]. Qed.
  Lemma cluster_like cs : forall ws ws2 d e d' ws', sim d e -> cluster cs ws d = Some (d', ws') ->
    (short_takes cs = Some false -> alike ws ws2 -> step_like ws ws2 d e d' ws' (cluster cs ws2 e)) /\
    (forall a r r2, short_takes cs = Some true -> ws = a :: r -> ws2 = a :: r2 -> alike r r2 -> step_like r r2 d e d' ws' (cluster cs ws2 e)).
  Proof.
    induction cs as [| c r IH]; intros ws ws2 d e d' ws' S H; cbn [M_Flags.cluster short_takes] in *.
    - split; [|discriminate]. intros _ A. injection H as <- <-. exists e. split; [exact S|]. split; [reflexivity|]. split; [reflexivity|]. left. auto.
    - destruct (c =?c "f"%char) eqn:CF; [split; discriminate|]. destruct (find_short c) as [s|] eqn:F; [|split; discriminate]. pose proof (short_ptr c s F CF) as P. destruct (arg_of s) eqn:AO.
      + destruct (apply_switch s None ws d) as [[d1 w1]|] eqn:A; [|discriminate]. split.
        * intros T AL. destruct (apply_like s None ws ws2 d e d1 w1 P AL S A) as (e1 & S1 & M1 & M2 & [(_ & ->) | (w & r2 & _ & _ & _ & ->)]); (eapply step_after; [exact M1|exact M2|]; apply (proj1 (IH ws ws2 d1 e1 d' ws' S1 H) T AL)).
        * intros a q q2 T -> -> AL. assert (AL' : alike (a :: q) (a :: q2)) by (left; reflexivity).
          destruct (apply_like s None (a :: q) (a :: q2) d e d1 w1 P AL' S A) as (e1 & S1 & M1 & M2 & [(_ & ->) | (w & r2 & _ & _ & _ & ->)]); (eapply step_after; [exact M1|exact M2|]; apply (proj2 (IH (a :: q) (a :: q2) d1 e1 d' ws' S1 H) a q q2 T eq_refl eq_refl AL)).
      + destruct r as [| c1 r].
        * split; [discriminate|]. intros a q q2 _ -> -> AL. eapply apply_like; eauto.
        * split; [|discriminate]. intros _ AL. eapply apply_like; eauto.
      + destruct r as [| c1 r]; (split; [|discriminate]); intros _ AL; eapply apply_like; eauto.
  Qed.
  Lemma long_like w ws ws2 d e d' ws' : sim d e -> long_opt w ws d = Some (d', ws') ->
    (long_takes w = Some false -> alike ws ws2 -> step_like ws ws2 d e d' ws' (long_opt w ws2 e)) /\
    (forall a r r2, long_takes w = Some true -> ws = a :: r -> ws2 = a :: r2 -> alike r r2 -> step_like r r2 d e d' ws' (long_opt w ws2 e)).
  Proof.
    intros S H. unfold M_Flags.long_opt, long_takes in *. destruct (match cut_at c_eq w with Some (n, a) => (n, Some a) | None => (w, None) end) as [n o].
    destruct (find_long n) as [[h c]|]; [|split; discriminate]. destruct (c =? ch "f") eqn:C; [split; discriminate|]. apply Nat.eqb_neq in C. destruct (find_switch c) as [s|] eqn:F; [|discriminate]. pose proof (ptr_ok c s F C) as P.
    destruct h.
    - split; [|destruct o; discriminate]. intros _ AL. destruct (apply_switch s None ws d) as [[d1 w1]|] eqn:A; [|discriminate]. injection H as <- <-.
      destruct (apply_like s None ws ws2 d e d1 w1 P AL S A) as (e1 & S1 & M1 & M2 & [(_ & ->) | (x & r2 & _ & _ & _ & ->)]); (exists e1; split; [exact S1|]; split; [exact M1|]; split; [exact M2|]; left; auto).
    - destruct o as [o|].
      + split; [|discriminate]. intros _ AL. eapply apply_like; eauto.
      + split; [discriminate|]. intros a q q2 _ -> -> AL. eapply apply_like; eauto.
    - destruct o as [o|]; (split; [|discriminate]); intros _ AL; eapply apply_like; eauto.
  Qed.

  (** -f *)
  Definition put (d : dstate) (ws : list str) (n : str) : option (dstate * list str) :=
    match n with [] => None | _ => match expand_command_line_file tilde n with Some f => Some (set_d D d "makefiles" (VList D (mk d ++ [f])), ws) | None => None end end.
  Lemma cluster_f n ws d : cluster (s2l "f") (n :: ws) d = put d ws n.
  Proof. destruct n; reflexivity. Qed.
  Lemma cluster_fn n ws d : n <> [] -> cluster ("f"%char :: n) ws d = put d ws n.
  Proof. destruct n; [congruence|reflexivity]. Qed.
  Lemma put_sim d ws n d' ws' : put d ws n = Some (d', ws') -> ws' = ws /\ (forall e, sim d e -> sim d' e) /\ exists f, expand_command_line_file tilde n = Some f /\ mk d' = mk d ++ [f].
  Proof.
    unfold put. destruct n as [| c n]; [discriminate|]. destruct (expand_command_line_file tilde (c :: n)) as [f|] eqn:E; [|discriminate]. intros H. injection H as <- <-. split; auto. split; [|exists f; split; auto].
    intros e [A B]. split; [exact A|]. intros p N. cbn [set_d d_opts]. unfold set_opt. replace (String.eqb p "makefiles") with false by (symmetry; apply String.eqb_neq; auto). auto.
  Qed.
  Lemma put_ok e ws m : m <> [] -> expand_command_line_file tilde m = Some m -> exists e', put e ws m = Some (e', ws) /\ mk e' = mk e ++ [m] /\ (forall d, sim d e -> sim d e').
  Proof.
    intros N E. unfold put. destruct m as [| c m]; [congruence|]. rewrite E. eexists. split; [reflexivity|]. split; [reflexivity|]. intros d [A B]. split; [exact A|]. intros p Q. cbn [set_d d_opts]. unfold set_opt.
    replace (String.eqb p "makefiles") with false by (symmetry; apply String.eqb_neq; auto). auto.
  Qed.

  (** The two readings of a list of words *)
  Lemma renamed_alike ws names ws2 : renamed ws names ws2 -> alike ws ws2.
  Proof. intros H. destruct H; cbn; auto; right; eauto. Qed.
  Lemma renamed_inv w ws names u : not_f w -> renamed (w :: ws) names u -> exists ws', u = w :: ws' /\ renamed ws names ws'.
  Proof. intros N H. inversion H; subst; eauto; [destruct (N [] eq_refl)|destruct (N n eq_refl)]. Qed.
  Lemma renamed_inv_f n ws names u : renamed (s2l "-f" :: n :: ws) names u -> exists m names' ws', names = m :: names' /\ u = s2l "-f" :: m :: ws' /\ renamed ws names' ws'.
  Proof. intros H. inversion H as [| ? ? ? ? N | |]; subst; eauto 8; [destruct (N [] eq_refl)|congruence]. Qed.
  Lemma renamed_inv_fn n ws names u : n <> [] -> renamed ((s2l "-f" ++ n) :: ws) names u -> exists m names' ws', names = m :: names' /\ u = (s2l "-f" ++ m) :: ws' /\ renamed ws names' ws'.
  Proof. intros NE H. inversion H as [| ? ? ? ? N | |]; subst; eauto 8; [destruct (N n eq_refl)|congruence]. Qed.
  Lemma aligned_inv w ws fs : no_dash w -> aligned (w :: ws) fs -> aligned ws fs.
  Proof.
    intros N H. inversion H as [| ? ? ? N' A | | | | ? ? ? T | ? ? ? ? T]; subst; auto; try (exfalso; destruct N as [N|N]; [discriminate N|eapply N; reflexivity]); destruct (takes_dash _ _ T N).
  Qed.
  Lemma words_sim ws : forall d e, sim d e -> sim (fold_left (non_switch D) ws d) (fold_left (non_switch D) ws e) /\ mk (fold_left (non_switch D) ws d) = mk d /\ mk (fold_left (non_switch D) ws e) = mk e.
  Proof.
    induction ws as [| w ws IH]; intros d e S; cbn [fold_left]; auto.
    assert (X : sim (non_switch D d w) (non_switch D e w) /\ mk (non_switch D d w) = mk d /\ mk (non_switch D e w) = mk e).
    { unfold non_switch. destruct (str_eqb w (s2l "-")); auto. destruct S as [A B]. split; [split; cbn; [congruence|exact B]|auto]. }
    destruct X as (X & Y & Z). destruct (IH _ _ X) as (X' & Y' & Z'). split; auto. split; congruence.
  Qed.
  Lemma word_step n w ws d : no_dash w -> decode_loop (S n) (w :: ws) d = decode_loop n ws (non_switch D d w).
  Proof.
    intros N. cbn [M_Flags.decode_loop]. destruct w as [| a [| b r]]; auto. destruct (a =?c c_minus) eqn:A; auto. apply eqc_true in A. subst. destruct N as [N|N]; [discriminate|destruct (N (b :: r) eq_refl)].
  Qed.
  Definition good_name (m : str) : Prop := m <> [] /\ expand_command_line_file tilde m = Some m.
  Lemma option_step n w b : takes w = Some b -> exists x (f : list str -> dstate -> option (dstate * list str)),
    (forall ws d, decode_loop (S n) (w :: ws) d = match f ws d with Some (d', ws'') => decode_loop n ws'' d' | None => None end) /\
    ((f = cluster x /\ short_takes x = Some b) \/ (f = long_opt x /\ long_takes x = Some b)).
  Proof.
    intros T. unfold takes in T. destruct w as [| a [| c r]]; try discriminate. destruct (a =?c c_minus) eqn:A; [|discriminate]. cbn [negb] in T. destruct (c =?c c_minus) eqn:C.
    - destruct r as [| x r]; [discriminate|]. exists (x :: r), (long_opt (x :: r)). split; [|auto]. intros. cbn [M_Flags.decode_loop]. rewrite A, C. reflexivity.
    - exists (c :: r), (cluster (c :: r)). split; [|auto]. intros. cbn [M_Flags.decode_loop]. rewrite A, C. reflexivity.
  Qed.
  Lemma decode_like n : forall ws fs ws2 names d e d1, aligned ws fs -> renamed ws names ws2 -> length names = length fs -> Forall good_name names -> sim d e -> decode_loop n ws d = Some d1 ->
    exists e1, decode_loop n ws2 e = Some e1 /\ sim d1 e1 /\ mk e1 = mk e ++ names /\ exists fs', Forall2 (fun f f' => expand_command_line_file tilde f = Some f') fs fs' /\ mk d1 = mk d ++ fs'.
  Proof.
    induction n as [| n IH]; intros ws fs ws2 names d e d1 A R L G S H; [discriminate H|].
    destruct A as [| w ws fs N A | ws N | m ws fs A | m ws fs NE A | w ws fs T A | w a ws fs T N A].
    - inversion R; subst. injection H as <-. exists e. split; [reflexivity|]. split; [exact S|]. rewrite app_nil_r. split; [reflexivity|]. exists []. rewrite app_nil_r. split; [constructor|reflexivity].
    - destruct (renamed_inv _ _ _ _ (no_dash_f _ N) R) as (ws' & -> & R'). rewrite word_step in H |- * by auto. destruct (words_sim [w] d e S) as (S' & M1 & M2). cbn [fold_left] in *.
      destruct (IH _ _ _ _ _ _ _ A R' L G S' H) as (e1 & H1 & H2 & H3 & fs' & H4 & H5). exists e1. split; [exact H1|]. split; [exact H2|]. split; [congruence|]. exists fs'. split; [exact H4|congruence].
    - destruct names; [|discriminate]. destruct (renamed_inv (s2l "--") _ _ _ ltac:(intros s X; discriminate) R) as (ws' & -> & R'). assert (ws' = ws).
      { clear - N R'. remember [] as names. revert Heqnames N. induction R'; intros E F; auto; try discriminate. inversion F; subst. f_equal. auto. }
      subst ws'. cbn in H. injection H as <-. destruct (words_sim ws d e S) as (S' & M1 & M2). exists (fold_left (non_switch D) ws e). split; [reflexivity|]. split; [exact S'|]. rewrite app_nil_r. split; [exact M2|]. exists []. rewrite app_nil_r. split; [constructor|exact M1].
    - destruct (renamed_inv_f _ _ _ _ R) as (m' & names' & ws' & -> & -> & R'). injection L as L. inversion G as [| ? ? [G1 G2] G']; subst.
      change (decode_loop (Datatypes.S n) (s2l "-f" :: m :: ws) d) with (match cluster (s2l "f") (m :: ws) d with Some (d', ws'') => decode_loop n ws'' d' | None => None end) in H.
      change (decode_loop (Datatypes.S n) (s2l "-f" :: m' :: ws') e) with (match cluster (s2l "f") (m' :: ws') e with Some (d', ws'') => decode_loop n ws'' d' | None => None end).
      rewrite cluster_f in *. destruct (put d ws m) as [[d' q]|] eqn:PD; [|discriminate]. apply put_sim in PD. destruct PD as (-> & S1 & f & F1 & F2). destruct (put_ok e ws' m' G1 G2) as (e' & -> & E1 & S2).
      destruct (IH _ _ _ _ _ _ _ A R' L G' (S2 _ (S1 _ S)) H) as (e1 & H1 & H2 & H3 & fs' & H4 & H5). exists e1. split; [exact H1|]. split; [exact H2|]. split; [rewrite H3, E1, <- app_assoc; reflexivity|].
      exists (f :: fs'). split; [constructor; auto|]. rewrite H5, F2, <- app_assoc. reflexivity.
    - destruct (renamed_inv_fn _ _ _ _ NE R) as (m' & names' & ws' & -> & -> & R'). injection L as L. inversion G as [| ? ? [G1 G2] G']; subst.
      change (decode_loop (Datatypes.S n) ((s2l "-f" ++ m) :: ws) d) with (match cluster ("f"%char :: m) ws d with Some (d', ws'') => decode_loop n ws'' d' | None => None end) in H.
      change (decode_loop (Datatypes.S n) ((s2l "-f" ++ m') :: ws') e) with (match cluster ("f"%char :: m') ws' e with Some (d', ws'') => decode_loop n ws'' d' | None => None end).
      rewrite cluster_fn in * by auto. destruct (put d ws m) as [[d' q]|] eqn:PD; [|discriminate]. apply put_sim in PD. destruct PD as (-> & S1 & f & F1 & F2). destruct (put_ok e ws' m' G1 G2) as (e' & -> & E1 & S2).
      destruct (IH _ _ _ _ _ _ _ A R' L G' (S2 _ (S1 _ S)) H) as (e1 & H1 & H2 & H3 & fs' & H4 & H5). exists e1. split; [exact H1|]. split; [exact H2|]. split; [rewrite H3, E1, <- app_assoc; reflexivity|].
      exists (f :: fs'). split; [constructor; auto|]. rewrite H5, F2, <- app_assoc. reflexivity.
    - destruct (renamed_inv _ _ _ _ (takes_f _ _ T) R) as (ws' & -> & R'). destruct (option_step n w false T) as (x & f & DF & F). rewrite DF in H |- *. destruct (f ws d) as [[d' q]|] eqn:FD; [|discriminate].
      assert (ST : step_like ws ws' d e d' q (f ws' e)).
      { destruct F as [(-> & F) | (-> & F)]; [apply (proj1 (cluster_like x ws ws' d e d' q S FD) F)|apply (proj1 (long_like x ws ws' d e d' q S FD) F)]; eapply renamed_alike; eauto. }
      destruct ST as (e' & S' & M1 & M2 & [(-> & ->) | (y & r2 & -> & -> & ND & ->)]).
      + destruct (IH _ _ _ _ _ _ _ A R' L G S' H) as (e1 & H1 & H2 & H3 & fs' & H4 & H5). exists e1. split; [exact H1|]. split; [exact H2|]. split; [congruence|]. exists fs'. split; [exact H4|congruence].
      + apply (aligned_inv y q) in A; auto. destruct (renamed_inv _ _ _ _ (no_dash_f _ ND) R') as (r3 & E3 & R3). injection E3 as <-.
        destruct (IH _ _ _ _ _ _ _ A R3 L G S' H) as (e1 & H1 & H2 & H3 & fs' & H4 & H5). exists e1. split; [exact H1|]. split; [exact H2|]. split; [congruence|]. exists fs'. split; [exact H4|congruence].
    - destruct (renamed_inv _ _ _ _ (takes_f _ _ T) R) as (ws0 & -> & R0). destruct (renamed_inv _ _ _ _ N R0) as (ws' & -> & R'). destruct (option_step n w true T) as (x & f & DF & F). rewrite DF in H |- *. destruct (f (a :: ws) d) as [[d' q]|] eqn:FD; [|discriminate].
      assert (ST : step_like ws ws' d e d' q (f (a :: ws') e)).
      { destruct F as [(-> & F) | (-> & F)]; [apply (proj2 (cluster_like x (a :: ws) (a :: ws') d e d' q S FD) a ws ws' F)|apply (proj2 (long_like x (a :: ws) (a :: ws') d e d' q S FD) a ws ws' F)]; auto; eapply renamed_alike; eauto. }
      destruct ST as (e' & S' & M1 & M2 & [(-> & ->) | (y & r2 & -> & -> & ND & ->)]).
      + destruct (IH _ _ _ _ _ _ _ A R' L G S' H) as (e1 & H1 & H2 & H3 & fs' & H4 & H5). exists e1. split; [exact H1|]. split; [exact H2|]. split; [congruence|]. exists fs'. split; [exact H4|congruence].
      + apply (aligned_inv y q) in A; auto. destruct (renamed_inv _ _ _ _ (no_dash_f _ ND) R') as (r3 & E3 & R3). injection E3 as <-.
        destruct (IH _ _ _ _ _ _ _ A R3 L G S' H) as (e1 & H1 & H2 & H3 & fs' & H4 & H5). exists e1. split; [exact H1|]. split; [exact H2|]. split; [congruence|]. exists fs'. split; [exact H4|congruence].
  Qed.
End Decode.
