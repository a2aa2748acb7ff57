From Verif Require Import Base M_Cmd S_Cmd P_Cmd.
From Coq Require Import Lia.
Open Scope string_scope.
Open Scope list_scope.
Open Scope nat_scope.

Definition is_nil {A} (l : list A) : bool := match l with [] => true | _ => false end.
Definition oc (cur : str) : option str := match cur with [] => None | _ => Some cur end.
(** What arrives of an escaped line. *)
Fixpoint passed (restp : bool) (p : str) : str :=
  match p with
  | [] => []
  | c :: q =>
      if restp && (c =?c c_nl) then []
      else if c =?c c_bslash then
        match q with
        | d :: q' => if d =?c c_nl then c :: d :: passed restp q' else c :: passed restp q
        | [] => [c]
        end
      else if c =?c c_nl then passed restp q else c :: passed restp q
  end.

Lemma blank_not_nl : forall c, (c =?c c_nl) = true -> isblank c = false.
Proof. intros c H. apply eqc_true in H. subst c. reflexivity. Qed.
Lemma fast_pair : forall os d q args cur he sne last skip, (d =?c c_nl) = false ->
  fast false os (c_bslash :: d :: q) args cur None he sne last skip = fast false os q args (cur ++ [d]) None he sne last false.
Proof. intros os d q args cur he sne last skip H. cbn [fast]. change (isblank c_bslash) with false. rewrite andb_false_r. cbn -[fast c_nl]. rewrite andb_false_r. rewrite H. reflexivity. Qed.
Lemma fast_plain : forall os c q args cur he sne last skip, mem c sh_chars = false -> (c =?c c_bslash) = false -> (c =?c c_sq) = false -> (c =?c c_nl) = false -> isblank c = false -> (c =?c c_eq) = true -> sne = true ->
  fast false os (c :: q) args cur None he sne last skip = fast false os q args (cur ++ [c]) None true sne last false.
Proof. intros os c q args cur he sne last skip A B C D E F ->. cbn [fast]. rewrite E, andb_false_r, A, D, andb_false_r, F. reflexivity. Qed.
Lemma fast_other : forall os c q args cur he sne last skip, mem c sh_chars = false -> (c =?c c_bslash) = false -> (c =?c c_sq) = false -> (c =?c c_nl) = false -> isblank c = false -> (c =?c c_eq) = false ->
  fast false os (c :: q) args cur None he sne last skip = fast false os q args (cur ++ [c]) None he sne last false.
Proof. intros os c q args cur he sne last skip A B C D E F. cbn [fast]. rewrite E, andb_false_r, A, D, andb_false_r, F, B, C, (dq_sh _ A). reflexivity. Qed.

(** * The escaped line *)
Lemma fast_escaped : forall restp n p args cur he last skip, length p <= n -> args <> [] -> head_ok args ->
  fast false false (fst (escape_line restp p)) args cur None he true last skip = finish None args (cur ++ passed restp p) last None.
Proof.
  intros restp. induction n as [|n IH]; intros p args cur he last skip L NA HO; (destruct p as [|c q]; [|cbn [length] in L; try (exfalso; lia)]); try (cbn [escape_line fst fast passed]; rewrite app_nil_r; reflexivity).
  cbn [escape_line passed]. destruct (restp && (c =?c c_nl)) eqn:E0; [cbn [fst fast]; rewrite app_nil_r; reflexivity|].
  assert (OTHER : forall b, (c =?c c_bslash) = b ->
     fast false false (fst (let '(t, r) := escape_line restp q in ((if b || (c =?c c_sq) || (c =?c c_dq) || isspace c || mem c sh_chars then [c_bslash] else []) ++ c :: t, r))) args cur None he true last skip
     = finish None args (cur ++ (if c =?c c_nl then passed restp q else c :: passed restp q)) last None).
  { intros b EB. pose proof (fun cur' he' skip' => IH q args cur' he' last skip' ltac:(lia) NA HO) as G. destruct (escape_line restp q) as [t r]. cbn [fst] in G |- *.
    destruct (b || (c =?c c_sq) || (c =?c c_dq) || isspace c || mem c sh_chars) eqn:ES.
    - cbn [app]. destruct (c =?c c_nl) eqn:EN.
      + apply eqc_true in EN. subst c. cbn [fast]. change (isblank c_bslash) with false. rewrite andb_false_r. cbn -[fast finish]. rewrite <- (G cur he (match cur with [] => true | _ => false end)). reflexivity.
      + rewrite fast_pair by exact EN. rewrite G, <- app_assoc. reflexivity.
    - repeat (apply orb_false_iff in ES; let H := fresh "N" in destruct ES as (ES & H)). rewrite ES in EB.
      assert (isblank c = false) as NB. { destruct (isblank c) eqn:X; [|reflexivity]. rewrite (isblank_isspace _ X) in N0. discriminate N0. }
      assert ((c =?c c_nl) = false) as NN. { destruct (c =?c c_nl) eqn:X; [|reflexivity]. apply eqc_true in X. subst c. discriminate N0. }
      rewrite NN. cbn [app]. destruct (c =?c c_eq) eqn:EE.
      + rewrite fast_plain by auto. rewrite G, <- app_assoc. reflexivity.
      + rewrite fast_other by auto. rewrite G, <- app_assoc. reflexivity. }
  cbv zeta. destruct (c =?c c_bslash) eqn:E1.
  - pose proof E1 as E1'. apply eqc_true in E1'. subst c. destruct q as [|d q'].
    + specialize (OTHER true eq_refl). change (c_bslash =?c c_nl) with false in OTHER. cbn [passed] in OTHER. exact OTHER.
    + destruct (d =?c c_nl) eqn:E2.
      * apply eqc_true in E2. subst d. pose proof (fun cur' he' skip' => IH q' args cur' he' last skip' ltac:(cbn [length] in L; lia) NA HO) as G. destruct (escape_line restp q') as [t r]. cbn [fst] in G |- *.
        rewrite fast_pair by reflexivity. cbn [fast]. cbn -[fast finish]. rewrite G, <- !app_assoc. reflexivity.
      * specialize (OTHER true eq_refl). change (c_bslash =?c c_nl) with false in OTHER. exact OTHER.
  - exact (OTHER false eq_refl).
Qed.

(** * The shell and its flags *)
Definition clean (s : str) : Prop := forall c, In c s -> c <> c_bslash /\ c <> c_sq /\ c <> c_nl.
Lemma blank_words_first : forall s cur, exists x l, blank_words s (Some cur) = (cur ++ x) :: l.
Proof.
  induction s as [|c s IH]; intros cur.
  - exists [], []. rewrite app_nil_r. reflexivity.
  - destruct (IH (cur ++ [c])) as (x & l & E). cbn [blank_words]. destruct (isblank c).
    + exists [], (blank_words s None). rewrite app_nil_r. reflexivity.
    + exists (c :: x), l. etransitivity; [exact E|]. rewrite <- app_assoc. reflexivity.
Qed.
Lemma neqc : forall a b : ascii, a <> b -> (a =?c b) = false.
Proof. intros a b H. destruct (a =?c b) eqn:E; [|reflexivity]. apply eqc_true in E. contradiction. Qed.
Definition first_ok (args words : list str) : Prop := args = [] -> match words with w :: _ => ~ In c_eq w /\ builtin w = false | [] => True end.
Lemma fast_blank : forall c rest args cur he, isblank c = true -> cur <> [] -> (args = [] -> he = false /\ builtin cur = false) ->
  fast false false (c :: rest) args cur None he (negb (is_nil args)) false false = fast false false rest (args ++ [cur]) [] None false true false true.
Proof.
  intros c rest args cur he B N H. assert (E : forall b, (if c =?c c_eq then b else false) = false) by (intros b; destruct (blank_cases _ B) as [-> | ->]; reflexivity).
  destruct args as [|a args]; destruct (blank_cases _ B) as [-> | ->]; cbn -[fast builtin]; cbn [fast andb]; cbn -[fast builtin].
  1,2: destruct (H eq_refl) as (-> & BU); rewrite BU; reflexivity.
  all: rewrite andb_false_r; reflexivity.
Qed.
Lemma fast_shell : forall rest s args cur he, clean s -> (cur = [] -> he = false) -> (args = [] -> he = false) -> first_ok args (blank_words s (oc cur)) ->
  fast false false (escape_shell s ++ c_sp :: rest) args cur None he (negb (is_nil args)) false (is_nil cur)
  = let args' := args ++ blank_words s (oc cur) in fast false false rest args' [] None false (negb (is_nil args')) false true.
Proof.
  intros rest. induction s as [|c s IH]; intros args cur he CL CU HE FO.
  - cbn [escape_shell flat_map app blank_words]. cbv zeta. destruct cur as [|x cur].
    + rewrite (CU eq_refl). cbn [oc ends]. rewrite app_nil_r. reflexivity.
    + cbn [oc ends is_nil blank_words] in *. rewrite fast_blank; [|reflexivity|discriminate|].
      * destruct args; reflexivity.
      * intros A. split; [exact (HE A)|]. exact (proj2 (FO A)).
  - destruct (CL c (or_introl eq_refl)) as (N1 & N2 & N3). apply neqc in N1, N2, N3. assert (CL' : clean s) by (intros d D; apply CL; right; exact D).
    cbn [escape_shell flat_map]. destruct (isblank c) eqn:BC.
    + assert (mem c sh_chars = false) as -> by (destruct (blank_cases _ BC) as [-> | ->]; reflexivity). cbn [app blank_words] in *. rewrite BC in *. destruct cur as [|x cur].
      * rewrite (CU eq_refl). cbn [oc ends is_nil app] in *. etransitivity; [|apply (IH args [] false); auto]. cbn [fast]. rewrite BC. reflexivity.
      * cbn [oc ends is_nil] in *. rewrite fast_blank; [|exact BC|discriminate|].
        -- pose proof (IH (args ++ [x :: cur]) [] false CL' (fun _ => eq_refl) (fun _ => eq_refl)) as G. cbn [oc is_nil] in G. rewrite <- app_assoc in G. cbn [app] in G |- *. rewrite <- G; [destruct args; reflexivity|].
           intros A. destruct args; discriminate A.
        -- intros A. split; [exact (HE A)|]. cbn [app] in FO. exact (proj2 (FO A)).
    + assert (STEP : exists he', ((args = [] -> he' = false)) /\ fast false false ((if mem c sh_chars then [c_bslash; c] else [c]) ++ escape_shell s ++ c_sp :: rest) args cur None he (negb (is_nil args)) false (is_nil cur)
         = fast false false (escape_shell s ++ c_sp :: rest) args (cur ++ [c]) None he' (negb (is_nil args)) false false).
      { destruct (mem c sh_chars) eqn:MS.
        - exists he. split; [exact HE|]. cbn [app]. rewrite fast_pair by exact N3. reflexivity.
        - destruct (c =?c c_eq) eqn:EE.
          + exists true. assert (args <> []) as NA.
            { intros A. pose proof (FO A) as FA. cbn [blank_words] in FA. rewrite BC in FA. unfold add in FA. 
              assert (exists x l, blank_words s (Some (match oc cur with Some w => w ++ [c] | None => [c] end)) = x :: l /\ In c x) as (x & l & E & I).
              { destruct (blank_words_first s (match oc cur with Some w => w ++ [c] | None => [c] end)) as (x & l & E). eexists _, l. split; [exact E|]. destruct (oc cur); apply in_or_app; left; [apply in_or_app; right|]; left; reflexivity. }
              rewrite E in FA. apply (proj1 FA). apply eqc_true in EE. subst c. exact I. }
            split; [intros A; contradiction|]. cbn [app]. rewrite fast_plain; auto. destruct args; [contradiction|reflexivity].
          + exists he. split; [exact HE|]. cbn [app]. rewrite fast_other; auto. }
      destruct STEP as (he' & HE' & STEP).
      rewrite <- app_assoc. etransitivity; [exact STEP|]. cbn [blank_words] in *. rewrite BC in *.
      assert (OC : add (oc cur) [c] = oc (cur ++ [c])) by (destruct cur; reflexivity). rewrite OC in *.
      assert (NE : is_nil (cur ++ [c]) = false) by (destruct cur; reflexivity). pose proof (IH args (cur ++ [c]) he' CL' ltac:(intros A; destruct cur; discriminate A) HE' FO) as G. rewrite NE in G. exact G.
Qed.

(** * What arrives, and what remains *)
Lemma snoc_cases : forall (x : str), x = [] \/ exists y c, x = y ++ [c].
Proof. intros x. destruct x as [|a x]; [auto|]. right. destruct (@exists_last _ (a :: x)) as (y & c & E); [discriminate|]. eauto. Qed.
Lemma passed_upto : forall n line, length line <= n -> upto_newline line (passed true line) /\
  line = passed true line ++ match snd (escape_line true line) with Some r => r | None => [] end.
Proof.
  induction n as [|n IH]; intros line L; (destruct line as [|c q]; [|cbn [length] in L; try (exfalso; lia)]); try (split; [split; [intros x y E; destruct x; discriminate E|auto]|reflexivity]).
  cbn [passed escape_line]. cbn [andb]. destruct (c =?c c_nl) eqn:E1.
  - apply eqc_true in E1. subst c. cbn [snd app]. split; [|reflexivity]. split.
    + intros x y E. destruct x; discriminate E.
    + right. exists q. split; [reflexivity|]. intros (a & E). destruct a; discriminate E.
  - cbv zeta.
    assert (ONE : (c =?c c_bslash) = false \/ match q with d :: _ => (d =?c c_nl) = false | [] => True end ->
       upto_newline (c :: q) (c :: passed true q) /\ c :: q = (c :: passed true q) ++ match snd (escape_line true q) with Some r => r | None => [] end).
    { intros NB. destruct (IH q ltac:(lia)) as ((U1 & U2) & U3). split.
      - split.
        + intros x y E. destruct x as [|d x]; [cbn in E; injection E as -> _; rewrite eqc_refl in E1; discriminate E1|]. cbn in E. injection E as <- E. destruct (U1 _ _ E) as (x' & ->). exists (c :: x'). reflexivity.
        + destruct U2 as [U2|(r & U2 & U4)]; [left; rewrite <- U2; reflexivity|]. right. exists r. split; [cbn; rewrite U2 at 1; reflexivity|].
          intros (a & E). destruct a as [|d a].
          * cbn in E. injection E as -> E. rewrite E in U2. cbn in U2. subst q. rewrite eqc_refl in NB. destruct NB as [NB|NB]; discriminate NB.
          * cbn in E. injection E as <- E. apply U4. exists a. exact E.
      - cbn [app]. rewrite <- U3. reflexivity. }
    destruct (c =?c c_bslash) eqn:E2.
    + destruct q as [|d q'].
      * destruct (ONE (or_intror Logic.I)) as (O1 & O2). cbn [passed] in O1, O2. split; [exact O1|]. destruct (escape_line true []) as [t r] eqn:EE. cbn in EE. injection EE as <- <-. reflexivity.
      * destruct (d =?c c_nl) eqn:E3.
        -- apply eqc_true in E2, E3. subst c d. destruct (IH q' ltac:(cbn [length] in L; lia)) as ((U1 & U2) & U3). split.
           ++ split.
              ** intros x y E. destruct x as [|e x]; [discriminate E|]. cbn in E. injection E as <- E. destruct x as [|f x]; [exists []; reflexivity|]. cbn in E. injection E as <- E.
                 destruct (U1 _ _ E) as (x' & ->). exists (c_bslash :: c_nl :: x'). reflexivity.
              ** destruct U2 as [U2|(r & U2 & U4)]; [left; rewrite <- U2; reflexivity|]. right. exists r. split; [cbn; rewrite U2 at 1; reflexivity|].
                 intros (a & E). destruct a as [|e a]; [discriminate E|]. cbn in E. injection E as <- E. destruct a as [|f a]; [discriminate E|]. cbn in E. injection E as <- E. apply U4. exists a. exact E.
           ++ destruct (escape_line true q') as [t r]. cbn [snd] in U3 |- *. cbn [app]. rewrite <- U3. reflexivity.
        -- destruct (ONE (or_intror eq_refl)) as (O1 & O2). split; [exact O1|]. destruct (escape_line true (d :: q')) as [t r]. exact O2.
    + destruct (ONE (or_introl eq_refl)) as (O1 & O2). split; [exact O1|]. destruct (escape_line true q) as [t r]. exact O2.
Qed.
(** Every newline comes directly after a backslash. *)
Definition joined_only (line : str) : Prop := forall x y, line = x ++ c_nl :: y -> exists x', x = x' ++ [c_bslash].
Lemma passed_all : forall n line, length line <= n -> joined_only line -> passed false line = line /\ snd (escape_line false line) = None.
Proof.
  induction n as [|n IH]; intros line L J; (destruct line as [|c q]; [|cbn [length] in L; try (exfalso; lia)]); try (split; reflexivity).
  cbn [passed escape_line andb]. cbv zeta. destruct (c =?c c_nl) eqn:E1.
  { exfalso. apply eqc_true in E1. subst c. destruct (J [] q eq_refl) as (x & E). destruct x; discriminate E. }
  assert (ONE : (c =?c c_bslash) = false \/ match q with d :: _ => (d =?c c_nl) = false | [] => True end -> passed false q = q /\ snd (escape_line false q) = None).
  { intros NB. apply IH; [lia|]. intros x y E. destruct (J (c :: x) y) as (x' & E'); [cbn; rewrite E; reflexivity|]. destruct x' as [|d x'].
    - cbn in E'. injection E' as -> ->. cbn in E. subst q. rewrite eqc_refl in NB. destruct NB as [NB|NB]; discriminate NB.
    - cbn in E'. injection E' as <- ->. exists x'. reflexivity. }
  destruct (c =?c c_bslash) eqn:E2.
  - destruct q as [|d q']; [split; reflexivity|]. destruct (d =?c c_nl) eqn:E3.
    + apply eqc_true in E2, E3. subst c d. destruct (IH q' ltac:(cbn [length] in L; lia)) as (U1 & U2).
      * intros x y E. destruct (J (c_bslash :: c_nl :: x) y) as (x' & E'); [cbn; rewrite E; reflexivity|]. destruct x' as [|d x']; [discriminate E'|]. cbn in E'. injection E' as <- E'.
        destruct x' as [|d x']; [discriminate E'|]. cbn in E'. injection E' as <- ->. exists x'. reflexivity.
      * rewrite U1. destruct (escape_line false q') as [t r]. cbn [snd] in *. auto.
    + destruct (ONE (or_intror eq_refl)) as (U1 & U2). rewrite U1. destruct (escape_line false (d :: q')) as [t r]. auto.
  - destruct (ONE (or_introl eq_refl)) as (U1 & U2). rewrite U1. destruct (escape_line false q) as [t r]. auto.
Qed.

(** * The newline at which the fast path gives up *)
Lemma builtin_bslash : forall w, In c_bslash w -> builtin w = false.
Proof.
  intros w H. destruct (builtin w) eqn:B; [|reflexivity]. exfalso. unfold builtin in B. apply existsb_exists in B. destruct B as (v & V & E). apply str_eqb_eq in E. subst v.
  assert (forallb (fun v => negb (mem c_bslash v)) sh_cmds = true) as F by reflexivity. rewrite forallb_forall in F. specialize (F w V). apply negb_true_iff in F.
  assert (mem c_bslash w = true) as M by (unfold mem; apply existsb_exists; exists c_bslash; split; [exact H|apply eqc_refl]). congruence.
Qed.
Definition before (bs : bool) (x : str) : bool := match rev x with c :: _ => c =?c c_bslash | [] => bs end.
Lemma before_cons : forall bs c x, before bs (c :: x) = before (c =?c c_bslash) x.
Proof. intros bs c x. unfold before. cbn [rev]. destruct (rev x); reflexivity. Qed.
Lemma fast_slow : forall os n p bs args cur i he sne last skip r, length p <= n -> i = None \/ i = Some c_sq ->
  (skip = true -> i = None /\ bs = false) ->
  (bs = true -> match i with None => exists cur', cur = cur' ++ [c_bslash] | Some _ => match p with d :: _ => (d =?c c_nl) = false | [] => True end end) ->
  fast true os p args cur i he sne last skip = Slow (Some r) -> exists x, p = x ++ r /\ (exists y, r = c_nl :: y) /\ before bs x = false.
Proof.
  intros os. induction n as [|n IH]; intros p bs args cur i he sne last skip r L QI SK BS R; (destruct p as [|c q]; [|cbn [length] in L; try (exfalso; lia)]).
  1,2: cbn [fast] in R; unfold finish in R; destruct i; [discriminate R|]; cbv zeta in R; destruct (if _ || last then _ else _) as [|? [|? ?]]; try destruct (builtin _); discriminate R.
  assert (GO : forall x q' args' cur' i' he' sne' last' skip', c :: q = x ++ q' -> x <> [] -> length q' <= n -> i' = None \/ i' = Some c_sq -> (skip' = true -> i' = None /\ before false x = false) ->
     (before false x = true -> match i' with None => exists cur0, cur' = cur0 ++ [c_bslash] | Some _ => match q' with d :: _ => (d =?c c_nl) = false | [] => True end end) ->
     fast true os q' args' cur' i' he' sne' last' skip' = Slow (Some r) -> exists x0, c :: q = x0 ++ r /\ (exists y, r = c_nl :: y) /\ before bs x0 = false).
  { intros x q' args' cur' i' he' sne' last' skip' EX NX LQ QI' SK' BS' F. destruct (IH _ (before false x) _ _ _ _ _ _ _ _ LQ QI' SK' BS' F) as (z & Z1 & Z2 & Z3). exists (x ++ z). split; [rewrite EX, Z1, app_assoc; reflexivity|].
    split; [exact Z2|]. unfold before in *. rewrite rev_app_distr. destruct (rev z) as [|k l]; [|exact Z3]. cbn [app]. destruct (rev x) as [|k l] eqn:RX; [|exact Z3].
    exfalso. apply NX. rewrite <- (rev_involutive x), RX. reflexivity. }
  assert (FIN : (c =?c c_nl) = true -> finish i args cur last (Some (c :: q)) = Slow (Some r) -> exists x0, c :: q = x0 ++ r /\ (exists y, r = c_nl :: y) /\ before bs x0 = false).
  { intros EN F. assert (r = c :: q /\ bs = false) as (-> & ->).
    { unfold finish in F. destruct i as [k|].
      - injection F as <-. split; [reflexivity|]. destruct bs; [|reflexivity]. specialize (BS eq_refl). congruence.
      - cbv zeta in F. destruct bs.
        + exfalso. destruct (BS eq_refl) as (cur' & ->). assert (negb (match cur' ++ [c_bslash] with [] => true | _ => false end) = true) as X by (destruct cur'; reflexivity). rewrite X in F. cbn [orb] in F.
          destruct args as [|a l]; [cbn [app] in F; rewrite builtin_bslash in F by (apply in_or_app; right; left; reflexivity); discriminate F|]. destruct l; discriminate F.
        + split; [|reflexivity]. destruct (if _ || last then _ else _) as [|? [|? ?]]; try discriminate F. destruct (builtin _); [|discriminate F]. injection F as <-. reflexivity. }
    apply eqc_true in EN. subst c. exists []. repeat split. eexists. reflexivity. }
  cbn [fast] in R. destruct (skip && isblank c) eqn:SB.
  { apply andb_true_iff in SB. destruct SB as (SB1 & SB2). destruct (SK SB1) as (-> & ->). assert (BX : before false [c] = false) by (destruct (blank_cases _ SB2) as [-> | ->]; reflexivity).
    refine (GO [c] _ _ _ _ _ _ _ _ eq_refl _ _ _ _ _ R); [discriminate|lia|auto| |rewrite BX; discriminate]. auto. }
  destruct i as [k|].
  { destruct QI as [?|KE]; [discriminate|]. injection KE as ->. destruct (c =?c c_sq) eqn:E1.
    { apply eqc_true in E1. subst c. refine (GO [c_sq] _ _ _ _ _ _ _ _ eq_refl _ _ _ _ _ R); [discriminate|lia|auto|discriminate|discriminate]. }
    cbv zeta in R.
    assert (OTHER : ((c =?c c_bslash) = true -> match q with d :: _ => (d =?c c_nl) = false | [] => True end) -> (if (c =?c c_nl) && true then finish (Some c_sq) args cur last (Some (c :: q)) else if (c_sq =?c c_dq) && mem c (s2l "\$`") then Slow None
             else fast true os q args (cur ++ [c]) (Some c_sq) he sne last false) = Slow (Some r) -> exists x0, c :: q = x0 ++ r /\ (exists y, r = c_nl :: y) /\ before bs x0 = false).
    { intros NB O. rewrite andb_true_r in O. destruct (c =?c c_nl) eqn:EN; [exact (FIN eq_refl O)|]. change (c_sq =?c c_dq) with false in O. cbn [andb] in O.
      refine (GO [c] _ _ _ _ _ _ _ _ eq_refl _ _ _ _ _ O); [discriminate|lia|auto|discriminate| ]. exact NB. }
    destruct (c =?c c_bslash) eqn:E2; [|exact (OTHER ltac:(discriminate) R)]. destruct q as [|d q']; [exact (OTHER (fun _ => Logic.I) R)|]. destruct (d =?c c_nl) eqn:E3; [|exact (OTHER (fun _ => eq_refl) R)].
    apply eqc_true in E2, E3. subst c d. change (c_sq =?c c_dq) with false in R. cbn match in R. refine (GO [c_bslash; c_nl] _ _ _ _ _ _ _ _ eq_refl _ _ _ _ _ R); [discriminate|cbn [length] in L; lia|auto|discriminate|discriminate]. }
  clear QI. destruct (mem c sh_chars) eqn:MS; [discriminate R|]. destruct (os && (c =?c c_nl)); [discriminate R|]. pose proof (dq_sh _ MS) as DQ.
  destruct (c =?c c_eq) eqn:E1.
  { apply eqc_true in E1. subst c. destruct (negb sne); [discriminate R|]. refine (GO [c_eq] _ _ _ _ _ _ _ _ eq_refl _ _ _ _ _ R); [discriminate|lia|auto|discriminate|discriminate]. }
  destruct (c =?c c_bslash) eqn:E2.
  { apply eqc_true in E2. subst c. destruct q as [|d q'].
    - exfalso. cbn [fast] in R. unfold finish in R. cbv zeta in R. destruct (if _ || last then _ else _) as [|? [|? ?]]; try destruct (builtin _); discriminate R.
    - cbn [length] in L. destruct (d =?c c_nl) eqn:E3.
      + apply eqc_true in E3. subst d. refine (GO [c_bslash; c_nl] _ _ _ _ _ _ _ _ eq_refl _ _ _ _ _ R); [discriminate|lia|auto|auto|discriminate].
      + refine (GO [c_bslash; d] _ _ _ _ _ _ _ _ eq_refl _ _ _ _ _ R); [discriminate|lia|auto|discriminate| ]. cbn. intros D. apply eqc_true in D. subst d. exists cur. reflexivity. }
  assert (BX : before false [c] = false) by exact E2.
  rewrite DQ, orb_false_r in R. destruct (c =?c c_sq) eqn:E3.
  { apply eqc_true in E3. subst c. refine (GO [c_sq] _ _ _ _ _ _ _ _ eq_refl _ _ _ _ _ R); [discriminate|lia|auto|discriminate|discriminate]. }
  destruct (c =?c c_nl) eqn:E4; [exact (FIN eq_refl R)|].
  destruct (isblank c) eqn:E5.
  { cbv zeta in R. destruct (he && _); [discriminate R|]. destruct (match args with [] => builtin cur | _ => false end); [discriminate R|].
    refine (GO [c] _ _ _ _ _ _ _ _ eq_refl _ _ _ _ _ R); [discriminate|lia|auto|auto|rewrite BX; discriminate]. }
  refine (GO [c] _ _ _ _ _ _ _ _ eq_refl _ _ _ _ _ R); [discriminate|lia|auto|discriminate|rewrite BX; discriminate].
Qed.
