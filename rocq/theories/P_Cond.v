From Verif Require Import Base M_Text S_Expand M_Cond S_Cond.
Open Scope string_scope.
Open Scope list_scope.
Open Scope nat_scope.

(** ** Words *)
Lemma next_token_spaces : forall s r, spaces s -> next_token (s ++ r) = next_token r.
Proof. intros s r H. induction H as [|c s H _ IH]; [reflexivity|]. cbn [app next_token]. rewrite H. exact IH. Qed.
Lemma end_of_token_word : forall w r, no_space w -> (r = [] \/ exists c t, r = c :: t /\ isspace c = true) -> end_of_token (w ++ r) = (w, r).
Proof.
  intros w r H Hr. induction H as [|c w H _ IH].
  - destruct Hr as [->|[c [t [-> Hc]]]]; [reflexivity|]. cbn [app end_of_token]. rewrite Hc. reflexivity.
  - cbn [app end_of_token]. rewrite H, IH. reflexivity.
Qed.
Lemma word_then_token : forall t w a, word_then t w a -> exists r, end_of_token t = (w, r) /\ next_token r = a.
Proof.
  intros t w a [s [-> [N [W [S A]]]]]. exists (s ++ a). split.
  - apply end_of_token_word; [exact W|]. destruct A as [->|[Ns _]].
    + rewrite app_nil_r. destruct S as [|c s Hc _]; [left; reflexivity|right; exists c, s; auto].
    + destruct S as [|c s Hc _]; [contradiction|right; exists c, (s ++ a); auto].
  - rewrite next_token_spaces by exact S. destruct A as [->|[_ [c [r [-> Hc]]]]]; [reflexivity|]. cbn [next_token]. rewrite Hc. reflexivity.
Qed.
Lemma word_then_cons : forall t w a, word_then t w a -> exists c u, t = c :: u /\ isspace c = false.
Proof.
  intros t w a [s [-> [N [W _]]]]. destruct W as [|c w Hc W]; [contradiction|]. exists c, (w ++ s ++ a). auto.
Qed.
Lemma if_word_kind : forall k, if_word (kind_word k) = Some k. Proof. destruct k; reflexivity. Qed.
Lemma if_word_none : forall w, ~ In w [s2l "ifdef"; s2l "ifndef"; s2l "ifeq"; s2l "ifneq"; s2l "else"; s2l "endif"] ->
  if_word w = None /\ str_eqb w (s2l "else") = false /\ str_eqb w (s2l "endif") = false.
Proof.
  intros w H. assert (E : forall x, In x [s2l "ifdef"; s2l "ifndef"; s2l "ifeq"; s2l "ifneq"; s2l "else"; s2l "endif"] -> str_eqb w x = false).
  { intros x Hx. destruct (str_eqb w x) eqn:K; [|reflexivity]. apply str_eqb_eq in K. subst x. contradiction. }
  unfold if_word. rewrite !E by (cbn [In]; tauto). auto.
Qed.

(** ** Conditions *)
Lemma next_app {A} : forall (o : option (str * A)) c (a : str),
  match (match o with Some (b, r) => Some (a ++ b, r) | None => None end) with Some (b, r) => Some (c :: b, r) | None => None end
  = match o with Some (b, r) => Some ((c :: a) ++ b, r) | None => None end.
Proof. intros [[b r]|] c a; reflexivity. Qed.
Definition after (a : str) (o : option (str * str)) : option (str * str) :=
  match o with Some (b, r) => Some (a ++ b, r) | None => None end.
Lemma after_nil : forall o, after [] o = o. Proof. intros [[b r]|]; reflexivity. Qed.
Lemma after_after : forall a b o, after a (after b o) = after (a ++ b) o.
Proof. intros a b [[x r]|]; [|reflexivity]. cbn [after]. rewrite app_assoc. reflexivity. Qed.
Lemma after_one : forall c o, match o with Some (b, r) => Some (c :: b, r) | None => None end = after [c] o.
Proof. intros c [[b r]|]; reflexivity. Qed.

Lemma find_comma_nested : forall a, nested c_lparen c_rparen a -> forall n r, (1 <= n)%Z -> find_comma n (a ++ r) = after a (find_comma n r).
Proof.
  intros a H. induction H as [|c t H1 H2 H IH|a b Ha IHa Hb IHb]; intros n r Hn.
  - rewrite after_nil. reflexivity.
  - cbn [app find_comma]. rewrite (proj2 (Ascii.eqb_neq c c_lparen) H1), (proj2 (Ascii.eqb_neq c c_rparen) H2).
    rewrite (proj2 (Z.leb_gt n 0)) by lia. rewrite andb_false_r, IH by exact Hn. rewrite after_one, after_after. reflexivity.
  - cbn [app find_comma]. rewrite Ascii.eqb_refl. rewrite <- app_assoc. rewrite IHa by lia. cbn [app find_comma].
    change (c_rparen =?c c_lparen) with false. cbv iota. rewrite Ascii.eqb_refl. replace (n + 1 - 1)%Z with n by lia.
    rewrite IHb by exact Hn. rewrite !after_one, !after_after. cbn [app]. rewrite <- !app_assoc. reflexivity.
Qed.
Lemma find_comma_arg : forall a, one_arg c_lparen c_rparen a -> forall r, find_comma 0 (a ++ c_comma :: r) = Some (a, r).
Proof.
  intros a H. assert (G : forall r, find_comma 0 (a ++ r) = after a (find_comma 0 r)).
  { induction H as [|c t H1 H2 H3 H IH|a b Ha Hb IHb]; intros r.
    - rewrite after_nil. reflexivity.
    - cbn [app find_comma]. rewrite (proj2 (Ascii.eqb_neq c c_lparen) H1), (proj2 (Ascii.eqb_neq c c_rparen) H2), (proj2 (Ascii.eqb_neq c c_comma) H3).
      cbn [andb]. rewrite IH, after_one, after_after. reflexivity.
    - cbn [app find_comma]. rewrite Ascii.eqb_refl. rewrite <- app_assoc. rewrite (find_comma_nested a Ha) by lia. cbn [app find_comma].
      change (c_rparen =?c c_lparen) with false. cbv iota. rewrite Ascii.eqb_refl. change (0 + 1 - 1)%Z with 0%Z.
      rewrite IHb. rewrite !after_one, !after_after. cbn [app]. rewrite <- !app_assoc. reflexivity. }
  intros r. rewrite G. cbn [find_comma]. change (c_comma =?c c_lparen) with false. change (c_comma =?c c_rparen) with false. cbv iota.
  rewrite Ascii.eqb_refl. cbn [andb Z.leb]. change (0 <=? 0)%Z with true. cbn [after]. rewrite app_nil_r. reflexivity.
Qed.
Lemma find_rparen_nested : forall b, nested c_lparen c_rparen b -> forall n r, (0 <= n)%Z -> find_rparen n (b ++ r) = after b (find_rparen n r).
Proof.
  intros b H. induction H as [|c t H1 H2 H IH|a b Ha IHa Hb IHb]; intros n r Hn.
  - rewrite after_nil. reflexivity.
  - cbn [app find_rparen]. rewrite (proj2 (Ascii.eqb_neq c c_lparen) H1), (proj2 (Ascii.eqb_neq c c_rparen) H2).
    rewrite IH by exact Hn. rewrite after_one, after_after. reflexivity.
  - cbn [app find_rparen]. rewrite Ascii.eqb_refl. rewrite <- app_assoc. rewrite IHa by lia. cbn [app find_rparen].
    change (c_rparen =?c c_lparen) with false. cbv iota. rewrite Ascii.eqb_refl. rewrite (proj2 (Z.leb_gt (n + 1) 0)) by lia.
    replace (n + 1 - 1)%Z with n by lia.
    rewrite IHb by exact Hn. rewrite !after_one, !after_after. cbn [app]. rewrite <- !app_assoc. reflexivity.
Qed.
Lemma find_char_app : forall q a r, ~ In q a -> find_char q (a ++ q :: r) = Some (a, r).
Proof.
  intros q a r H. induction a as [|c a IH]; cbn [app find_char].
  - rewrite Ascii.eqb_refl. reflexivity.
  - rewrite (proj2 (Ascii.eqb_neq c q)) by (intros ->; apply H; left; reflexivity). rewrite IH by (intros K; apply H; right; exact K). reflexivity.
Qed.
Lemma rstrip_solid : forall a bl, ends_solid a -> blank_text bl -> rstrip (a ++ bl) = a.
Proof.
  intros a bl Ha Hb. unfold rstrip. rewrite rev_app_distr.
  assert (L : forall x y, blank_text x -> lstrip (x ++ y) = lstrip y).
  { intros x y H. induction H as [|c x H _ IH]; [reflexivity|]. cbn [app lstrip]. rewrite H. exact IH. }
  rewrite L by (apply Forall_rev; exact Hb). destruct Ha as [->|[r [c [-> Hc]]]]; [reflexivity|].
  rewrite rev_app_distr. cbn [rev app lstrip]. rewrite Hc. cbn [rev]. rewrite rev_involutive. reflexivity.
Qed.

Section Sem.
  Variable state : Type.
  Variable expand : state -> str -> str.
  Variable nonempty : state -> str -> bool.
  Variable act : state -> rline -> state.
  Variable define : state -> str -> list rline -> state.
  Notation cond_test := (cond_test state expand nonempty).
  Notation condition := (condition state expand nonempty).
  Notation push_if := (push_if state expand nonempty).
  Notation conditional_line := (conditional_line state expand nonempty).
  Notation loop := (loop state).
  Notation mkloop := (mkloop state).
  Notation read_line := (read_line state expand nonempty act define).
  Notation read_lines := (read_lines state expand nonempty act define).
  Notation exec := (exec state expand nonempty act define).
  Notation exec_tail := (exec_tail state expand nonempty act define).

  Lemma test_compares : forall sg k args a b, k = k_ifeq \/ k = k_ifneq -> compares args a b ->
    cond_test sg k args = Some (Bool.eqb (str_eqb (expand sg a) (expand sg b)) (negated k)).
  Proof.
    intros sg k args a b Hk H.
    assert (K : (match k with k_ifneq => true | _ => false end) = negated k) by (destruct Hk; subst; reflexivity).
    destruct H as [a bl sp b x Ha Ea Hbl Hsp Eb Hb|q a sp q' b x Hq Hq' Ha Hb Hsp].
    - assert (F : find_rparen 0 (next_token (sp ++ b ++ c_rparen :: x)) = Some (b, x)).
      { rewrite next_token_spaces by exact Hsp.
        assert (N : next_token (b ++ c_rparen :: x) = b ++ c_rparen :: x) by (destruct Eb as [->|[c [r [-> Hc]]]]; [reflexivity|cbn [app next_token]; rewrite Hc; reflexivity]).
        rewrite N, (find_rparen_nested b Hb) by lia. cbn. rewrite app_nil_r. reflexivity. }
      assert (G : find_comma 0 (a ++ bl ++ c_comma :: sp ++ b ++ c_rparen :: x) = Some (a ++ bl, sp ++ b ++ c_rparen :: x)).
      { rewrite app_assoc. apply find_comma_arg. exact Ha. }
      destruct Hk as [-> | ->]; unfold M_Cond.cond_test; change (c_lparen =?c c_lparen) with true; cbv iota; rewrite G, (rstrip_solid a bl Ea Hbl);
        change (c_rparen =?c c_rparen) with true; cbv iota zeta; rewrite F; reflexivity.
    - assert (Q1 : (q =?c c_lparen) = false /\ (q =?c c_comma) = false /\ ((q =?c c_dq) || (q =?c c_sq)) = true) by (destruct Hq as [-> | ->]; auto).
      assert (Q2 : (q' =?c c_rparen) = false /\ ((q' =?c c_dq) || (q' =?c c_sq)) = true) by (destruct Hq' as [-> | ->]; auto).
      assert (N : next_token (sp ++ q' :: b ++ q' :: x) = q' :: b ++ q' :: x).
      { rewrite next_token_spaces by exact Hsp. destruct Hq' as [-> | ->]; reflexivity. }
      destruct Q1 as [A1 [A2 A3]], Q2 as [B1 B2].
      destruct Hk as [-> | ->]; unfold M_Cond.cond_test; rewrite A1, A2, A3, (find_char_app q a _ Ha), N, B1, B2;
        cbv zeta; try rewrite B1; rewrite (find_char_app q' b x Hb); reflexivity.
  Qed.

  Lemma condition_test : forall sg k args b, condition sg k args b -> cond_test sg k args = Some (negb b).
  Proof.
    intros sg k args b H. destruct H as [k args n s Hk E Hn Hs|k args a b Hk C E|k args a b Hk C E].
    - assert (T : end_of_token (n ++ s) = (n, s)).
      { apply end_of_token_word; [exact Hn|]. destruct Hs as [|c s Hc _]; [left; reflexivity|right; exists c, s; auto]. }
      assert (N : next_token s = []) by (pose proof (next_token_spaces s [] Hs) as N; rewrite app_nil_r in N; exact N).
      destruct Hk as [-> | ->]; unfold M_Cond.cond_test; rewrite E, T, N; cbn [negated]; destruct (nonempty sg n); reflexivity.
    - rewrite (test_compares sg k args a b Hk C), E. assert (R : str_eqb (expand sg b) (expand sg b) = true) by (apply str_eqb_eq; reflexivity).
      rewrite R. destruct (negated k); reflexivity.
    - rewrite (test_compares sg k args a b Hk C). destruct (str_eqb (expand sg a) (expand sg b)) eqn:K; [apply str_eqb_eq in K; contradiction|].
      destruct (negated k); reflexivity.
  Qed.

  (** ** The levels *)
  Lemma ignoring_app : forall l x, ignoring_from (l ++ [x]) =
    match ignoring_from l with
    | Some false => match l_ignoring x with None => None | Some 0 => Some false | Some _ => Some true end
    | r => r
    end.
  Proof.
    induction l as [|y l IH]; intros x; [reflexivity|]. cbn [app ignoring_from]. destruct (l_ignoring y) as [[|n]|]; [apply IH|reflexivity..].
  Qed.
  Lemma any_cons : forall x st, any_ignoring (x :: st) =
    match any_ignoring st with
    | Some false => match l_ignoring x with None => None | Some 0 => Some false | Some _ => Some true end
    | r => r
    end.
  Proof. intros x st. unfold any_ignoring. cbn [rev]. apply ignoring_app. Qed.

  Lemma push_ignored : forall sg k args st, any_ignoring st = Some true ->
    push_if sg k args st = CRet (mklevel (Some 1) false :: st) true.
  Proof. intros sg k args st H. unfold M_Cond.push_if. rewrite H. reflexivity. Qed.
  Lemma push_test : forall sg k args st b, any_ignoring st = Some false -> condition sg k args b ->
    push_if sg k args st = CRet (mklevel (Some (if b then 0 else 1)) false :: st) (negb b).
  Proof.
    intros sg k args st b H C. unfold M_Cond.push_if. rewrite H, (condition_test _ _ _ _ C). unfold done. rewrite any_cons, H. cbn [l_ignoring].
    destruct b; reflexivity.
  Qed.

  Lemma line_if : forall sg t k args st, word_then t (kind_word k) args -> forall ig,
    read_line (mkloop sg st ig false None) (ROther t) =
    match push_if sg k args st with
    | CRet st' ig' => LOk state (mkloop sg st' ig' false None)
    | CUB => LUB state
    | CNot => if ig then LOk state (mkloop sg st ig false None) else LOk state (mkloop (act sg (ROther t)) st ig false None)
    | _ => LFatal state
    end.
  Proof.
    intros sg t k args st H ig. destruct (word_then_token _ _ _ H) as [r [E N]]. unfold M_Cond.read_line. cbn [p_define p_ignored_define p_state p_levels p_ignoring].
    rewrite E, N. unfold M_Cond.conditional_line. rewrite if_word_kind. destruct (push_if sg k args st); reflexivity.
  Qed.
  Lemma line_endif : forall sg t a x st ig b, word_then t (s2l "endif") a -> any_ignoring st = Some b ->
    read_line (mkloop sg (x :: st) ig false None) (ROther t) = LOk state (mkloop sg st b false None).
  Proof.
    intros sg t a x st ig b H A. destruct (word_then_token _ _ _ H) as [r [E N]]. unfold M_Cond.read_line. cbn [p_define p_ignored_define p_state p_levels p_ignoring].
    rewrite E, N. unfold M_Cond.conditional_line. change (if_word (s2l "endif")) with (@None ckind). cbv iota.
    change (str_eqb (s2l "endif") (s2l "else")) with false. change (str_eqb (s2l "endif") (s2l "endif")) with true. cbv iota.
    unfold done. rewrite A. reflexivity.
  Qed.
  Definition turned (i : nat) : nat := match i with 0 => 2 | 1 => 0 | _ => i end.
  Lemma line_else : forall sg t i st ig b, word_then t (s2l "else") [] -> any_ignoring (mklevel (Some (turned i)) true :: st) = Some b ->
    read_line (mkloop sg (mklevel (Some i) false :: st) ig false None) (ROther t) = LOk state (mkloop sg (mklevel (Some (turned i)) true :: st) b false None).
  Proof.
    intros sg t i st ig b H A. destruct (word_then_token _ _ _ H) as [r [E N]]. unfold M_Cond.read_line. cbn [p_define p_ignored_define p_state p_levels p_ignoring].
    rewrite E, N. unfold M_Cond.conditional_line. change (if_word (s2l "else")) with (@None ckind). cbv iota.
    change (str_eqb (s2l "else") (s2l "else")) with true. cbv iota. cbn [l_seen_else l_ignoring].
    unfold done. fold (turned i). rewrite A. reflexivity.
  Qed.
  Lemma line_elif : forall sg t u k args i st ig y z b, word_then t (s2l "else") u -> word_then u (kind_word k) args ->
    push_if sg k args (mklevel (Some (turned i)) false :: st) = CRet (mklevel (Some y) false :: mklevel (Some (turned i)) false :: st) z ->
    any_ignoring (mklevel (Some (if turned i <? 2 then y else turned i)) false :: st) = Some b ->
    read_line (mkloop sg (mklevel (Some i) false :: st) ig false None) (ROther t) =
    LOk state (mkloop sg (mklevel (Some (if turned i <? 2 then y else turned i)) false :: st) b false None).
  Proof.
    intros sg t u k args i st ig y z b H H' P A. destruct (word_then_token _ _ _ H) as [r [E N]]. destruct (word_then_token _ _ _ H') as [r' [E' N']].
    destruct (word_then_cons _ _ _ H') as [c [v [-> Hc]]].
    unfold M_Cond.read_line. cbn [p_define p_ignored_define p_state p_levels p_ignoring].
    rewrite E, N. unfold M_Cond.conditional_line. change (if_word (s2l "else")) with (@None ckind). cbv iota.
    change (str_eqb (s2l "else") (s2l "else")) with true. cbv iota. cbn [l_seen_else l_ignoring].
    cbn [end_of_token] in E'. rewrite Hc in E'. destruct (end_of_token v) as [w1 r1]. inversion E'; subst r'.
    fold (turned i). rewrite H1, if_word_kind. rewrite <- N' in P. rewrite P. cbn [l_ignoring].
    destruct (turned i <? 2); unfold done; rewrite A; reflexivity.
  Qed.

  Lemma read_app : forall a b l, read_lines l (a ++ b) = match read_lines l a with LOk _ l' => read_lines l' b | e => e end.
  Proof. induction a as [|x a IH]; intros b l; [reflexivity|]. cbn [app M_Cond.read_lines]. destruct (read_line l x); [apply IH|reflexivity..]. Qed.

  (** ** Ignored text *)
  Lemma skip_body : forall body e sg st, Forall body_line body -> word_then e (s2l "endef") [] ->
    read_lines (mkloop sg st true true None) (body ++ [ROther e]) = LOk state (mkloop sg st true false None).
  Proof.
    intros body e sg st H He. rewrite read_app.
    assert (B : read_lines (mkloop sg st true true None) body = LOk state (mkloop sg st true true None)).
    { induction H as [|l body Hl _ IH]; [reflexivity|]. cbn [M_Cond.read_lines]. destruct l as [t|t|t|t]; cbn [body_line] in Hl.
      - exact IH.
      - exact IH.
      - destruct Hl.
      - destruct Hl as [w [a [Hw Nw]]]. destruct (word_then_token _ _ _ Hw) as [r [E N]]. unfold M_Cond.read_line. cbn [p_define p_ignored_define p_state p_levels p_ignoring].
        unfold is_endef. rewrite E. destruct (str_eqb w (s2l "endef")) eqn:K; [apply str_eqb_eq in K; contradiction|]. cbn [andb negb]. exact IH. }
    rewrite B. cbn [M_Cond.read_lines]. unfold M_Cond.read_line. cbn [p_define p_ignored_define p_state p_levels p_ignoring].
    destruct (word_then_token _ _ _ He) as [r [E N]]. unfold is_endef. rewrite E, N.
    change (str_eqb (s2l "endef") (s2l "endef")) with true. reflexivity.
  Qed.

  Scheme prog_m := Induction for prog Sort Prop with tail_m := Induction for tail Sort Prop.
  Combined Scheme prog_tail_ind from prog_m, tail_m.

  Lemma skip_all :
    (forall p, wf p -> forall sg st, any_ignoring st = Some true ->
       read_lines (mkloop sg st true false None) (lines p) = LOk state (mkloop sg st true false None)) /\
    (forall e, wf_tail e -> forall sg st i ig b, any_ignoring st = Some b -> (b = true \/ i = 0 \/ i = 2) ->
       read_lines (mkloop sg (mklevel (Some i) false :: st) ig false None) (tail_lines e) = LOk state (mkloop sg st b false None)).
  Proof.
    apply prog_tail_ind.
    - reflexivity.
    - intros l p IH [Hl Hp] sg st A. cbn [lines M_Cond.read_lines].
      assert (E : read_line (mkloop sg st true false None) l = LOk state (mkloop sg st true false None)).
      { destruct l as [t|t|t|t]; cbn [plain_line] in Hl; [reflexivity|reflexivity|destruct Hl|].
        destruct Hl as [w [a [Hw Nw]]]. destruct (word_then_token _ _ _ Hw) as [r [E N]]. unfold M_Cond.read_line. cbn [p_define p_ignored_define p_state p_levels p_ignoring].
        rewrite E, N. unfold M_Cond.conditional_line. destruct (if_word_none w Nw) as [-> [-> ->]]. reflexivity. }
      rewrite E. apply IH; assumption.
    - intros t body e p IH [Hb [He Hp]] sg st A. cbn [lines M_Cond.read_lines]. unfold M_Cond.read_line at 1. cbn [p_define p_ignored_define p_state p_levels p_ignoring].
      change (body ++ ROther e :: lines p) with (body ++ [ROther e] ++ lines p). rewrite app_assoc, read_app. rewrite skip_body by assumption. apply IH; assumption.
    - intros t k args p IHp e IHe rest IHr [Ht [Hp [He Hr]]] sg st A. cbn [lines M_Cond.read_lines]. rewrite (line_if sg t k args st Ht).
      rewrite (push_ignored sg k args st A). rewrite read_app. rewrite IHp; [|exact Hp|rewrite any_cons, A; reflexivity].
      rewrite read_app. rewrite (IHe He sg st 1 true true A) by auto. apply IHr; assumption.
    - intros t [a Ht] sg st i ig b A D. cbn [tail_lines M_Cond.read_lines]. rewrite (line_endif _ _ _ _ _ _ _ Ht A). reflexivity.
    - intros t p IH e [Ht [Hp [a He]]] sg st i ig b A D. cbn [tail_lines M_Cond.read_lines].
      assert (B : any_ignoring (mklevel (Some (turned i)) true :: st) = Some true).
      { rewrite any_cons, A. cbn [l_ignoring]. destruct b; [reflexivity|]. destruct D as [D|[D|D]]; [discriminate|subst; reflexivity..]. }
      rewrite (line_else _ _ _ _ _ _ Ht B). rewrite read_app, IH by assumption. cbn [M_Cond.read_lines]. rewrite (line_endif _ _ _ _ _ _ _ He A). reflexivity.
    - intros t k args p IHp e IHe [[u [Ht Hu]] [Hp He]] sg st i ig b A D. cbn [tail_lines M_Cond.read_lines].
      assert (B : any_ignoring (mklevel (Some (turned i)) false :: st) = Some true).
      { rewrite any_cons, A. cbn [l_ignoring]. destruct b; [reflexivity|]. destruct D as [D|[D|D]]; [discriminate|subst; reflexivity..]. }
      assert (B' : any_ignoring (mklevel (Some (if turned i <? 2 then 1 else turned i)) false :: st) = Some true).
      { rewrite any_cons, A. cbn [l_ignoring]. destruct b; [reflexivity|]. destruct D as [D|[D|D]]; [discriminate|subst; reflexivity..]. }
      rewrite (line_elif sg t u k args i st ig 1 true true Ht Hu (push_ignored _ _ _ _ B) B').
      rewrite read_app, IHp by assumption. apply (IHe He sg st _ true b A).
      destruct D as [D|[D|D]]; [left; exact D|subst i; cbn; auto|subst i; cbn; auto].
  Qed.

  (** ** Executed text *)
  Lemma run_body : forall body e sg st t, Forall body_line body -> word_then e (s2l "endef") [] -> forall acc,
    read_lines (mkloop sg st false false (Some (t, 1, acc))) (body ++ [ROther e]) = LOk state (mkloop (define sg t (rev acc ++ body)) st false false None).
  Proof.
    intros body e sg st t H He. destruct (word_then_token _ _ _ He) as [r [E N]].
    induction H as [|l body Hl _ IH]; intros acc.
    - cbn [app M_Cond.read_lines]. unfold M_Cond.read_line. cbn [p_define p_ignored_define p_state p_levels p_ignoring]. rewrite E. cbn [fst].
      change (str_eqb (s2l "endef") (s2l "endef")) with true. cbv iota. rewrite app_nil_r. reflexivity.
    - cbn [app M_Cond.read_lines].
      assert (S1 : read_line (mkloop sg st false false (Some (t, 1, acc))) l = LOk state (mkloop sg st false false (Some (t, 1, l :: acc)))).
      { destruct l as [x|x|x|x]; cbn [body_line] in Hl; [reflexivity|reflexivity|destruct Hl|].
        destruct Hl as [w [a [Hw Nw]]]. destruct (word_then_token _ _ _ Hw) as [r' [E' _]]. unfold M_Cond.read_line. cbn [p_define p_ignored_define p_state p_levels p_ignoring].
        rewrite E'. cbn [fst]. destruct (str_eqb w (s2l "endef")) eqn:K; [apply str_eqb_eq in K; contradiction|]. reflexivity. }
      rewrite S1, IH. cbn [rev]. rewrite <- app_assoc. reflexivity.
  Qed.

  Scheme exec_m := Induction for S_Cond.exec Sort Prop with exec_tail_m := Induction for S_Cond.exec_tail Sort Prop.
  Combined Scheme exec_both from exec_m, exec_tail_m.

  Lemma run_all :
    (forall p sg sg', exec p sg sg' -> wf p -> forall st, any_ignoring st = Some false ->
       read_lines (mkloop sg st false false None) (lines p) = LOk state (mkloop sg' st false false None)) /\
    (forall e sg sg', exec_tail e sg sg' -> wf_tail e -> forall st, any_ignoring st = Some false ->
       read_lines (mkloop sg (mklevel (Some 1) false :: st) true false None) (tail_lines e) = LOk state (mkloop sg' st false false None)).
  Proof.
    destruct skip_all as [SK ST].
    apply (exec_both state expand nonempty act define
      (fun p sg sg' _ => wf p -> forall st, any_ignoring st = Some false ->
         read_lines (mkloop sg st false false None) (lines p) = LOk state (mkloop sg' st false false None))
      (fun e sg sg' _ => wf_tail e -> forall st, any_ignoring st = Some false ->
         read_lines (mkloop sg (mklevel (Some 1) false :: st) true false None) (tail_lines e) = LOk state (mkloop sg' st false false None))).
    - reflexivity.
    - intros l p sg sg' _ IH [Hl Hp] st A. cbn [lines M_Cond.read_lines].
      assert (E : read_line (mkloop sg st false false None) l = LOk state (mkloop (act sg l) st false false None)).
      { destruct l as [t|t|t|t]; cbn [plain_line] in Hl; [reflexivity|reflexivity|destruct Hl|].
        destruct Hl as [w [a [Hw Nw]]]. destruct (word_then_token _ _ _ Hw) as [r [E N]]. unfold M_Cond.read_line. cbn [p_define p_ignored_define p_state p_levels p_ignoring].
        rewrite E, N. unfold M_Cond.conditional_line. destruct (if_word_none w Nw) as [-> [-> ->]]. reflexivity. }
      rewrite E. apply IH; assumption.
    - intros t body e p sg sg' _ IH [Hb [He Hp]] st A. cbn [lines M_Cond.read_lines]. unfold M_Cond.read_line at 1. cbn [p_define p_ignored_define p_state p_levels p_ignoring].
      change (body ++ ROther e :: lines p) with (body ++ [ROther e] ++ lines p). rewrite app_assoc, read_app. rewrite run_body by assumption. cbn [rev app]. apply IH; assumption.
    - intros t k args p e rest sg sg1 sg2 C _ IHp _ IHr [Ht [Hp [He Hr]]] st A. cbn [lines M_Cond.read_lines]. rewrite (line_if sg t k args st Ht).
      rewrite (push_test sg k args st true A C). cbn [negb]. rewrite read_app. rewrite IHp; [|exact Hp|rewrite any_cons, A; reflexivity].
      rewrite read_app. rewrite (ST e He sg1 st 0 false false A) by auto. apply IHr; assumption.
    - intros t k args p e rest sg sg1 sg2 C _ IHe _ IHr [Ht [Hp [He Hr]]] st A. cbn [lines M_Cond.read_lines]. rewrite (line_if sg t k args st Ht).
      rewrite (push_test sg k args st false A C). cbn [negb]. rewrite read_app. rewrite SK; [|exact Hp|rewrite any_cons, A; reflexivity].
      rewrite read_app. rewrite (IHe He st A). apply IHr; assumption.
    - intros t sg [a Ht] st A. cbn [tail_lines M_Cond.read_lines]. rewrite (line_endif _ _ _ _ _ _ _ Ht A). reflexivity.
    - intros t p e sg sg' _ IH [Ht [Hp [a He]]] st A. cbn [tail_lines M_Cond.read_lines].
      assert (B : any_ignoring (mklevel (Some (turned 1)) true :: st) = Some false) by (rewrite any_cons, A; reflexivity).
      rewrite (line_else _ _ _ _ _ _ Ht B). rewrite read_app, IH by assumption. cbn [M_Cond.read_lines]. rewrite (line_endif _ _ _ _ _ _ _ He A). reflexivity.
    - intros t k args p e sg sg' C _ IH [[u [Ht Hu]] [Hp He]] st A. cbn [tail_lines M_Cond.read_lines].
      assert (B : any_ignoring (mklevel (Some (turned 1)) false :: st) = Some false) by (rewrite any_cons, A; reflexivity).
      rewrite (line_elif sg t u k args 1 st true 0 false false Ht Hu (push_test _ _ _ _ true B C)); [|rewrite any_cons, A; reflexivity].
      rewrite read_app, IH; [|exact Hp|rewrite any_cons, A; reflexivity]. apply (ST e He sg' st 0 false false A). auto.
    - intros t k args p e sg sg' C _ IH [[u [Ht Hu]] [Hp He]] st A. cbn [tail_lines M_Cond.read_lines].
      assert (B : any_ignoring (mklevel (Some (turned 1)) false :: st) = Some false) by (rewrite any_cons, A; reflexivity).
      rewrite (line_elif sg t u k args 1 st true 1 true true Ht Hu (push_test _ _ _ _ false B C)); [|rewrite any_cons, A; reflexivity].
      rewrite read_app, SK; [|exact Hp|rewrite any_cons, A; reflexivity]. apply IH; assumption.
  Qed.
End Sem.
