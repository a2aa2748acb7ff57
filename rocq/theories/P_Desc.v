From Verif Require Import Base M_Quote P_Quote M_Desc S_Desc.
Open Scope string_scope.
Open Scope list_scope.
Open Scope nat_scope.

Lemma skip_comment o c : forall s d rp, c <> c_bslash -> exists rp', fst (skip_ref o c d rp s) = rp' /\
  comment (Ref o c d) s = comment (Txt 0) (snd (skip_ref o c d rp s)) /\ (snd (skip_ref o c d rp s) <> [] -> count_bs rp' = 0) /\ length (snd (skip_ref o c d rp s)) <= length s.
Proof.
  intros s d rp N. eexists. split; [reflexivity|]. revert d rp. induction s as [|x s IH]; intros d rp; cbn [skip_ref comment].
  - cbn [fst snd]. split; [reflexivity|]. split; [intros X; congruence|cbn [length]; lia].
  - destruct (x =?c o) eqn:E1; [destruct (IH (S d) (x :: rp)) as (A & B & C); repeat split; [exact A|exact B|cbn [length]; lia]|].
    destruct (x =?c c) eqn:E2.
    + destruct d as [|d]; [|destruct (IH d (x :: rp)) as (A & B & C); repeat split; [exact A|exact B|cbn [length]; lia]].
      cbn [fst snd]. repeat split; [|cbn [length]; lia]. intros _. apply eqc_true in E2. subst x. cbn [count_bs]. destruct (c =?c c_bslash) eqn:Q; [apply eqc_true in Q; congruence|reflexivity].
    + destruct (IH d (x :: rp)) as (A & B & C); repeat split; [exact A|exact B|cbn [length]; lia].
Qed.
Lemma find_comment s : forall fuel rp, length s < fuel -> exists f, find_map_unquote_loop is_hash true fuel rp s = Some f /\ f_rest f = comment (Txt (count_bs rp)) s.
Proof.
  assert (G : forall fuel s rp, length s < fuel -> exists f, find_map_unquote_loop is_hash true fuel rp s = Some f /\ f_rest f = comment (Txt (count_bs rp)) s).
  { clear. induction fuel as [|fuel IH]; intros s rp L; [lia|]. destruct s as [|x s]; cbn [find_map_unquote_loop comment]; [eexists; split; reflexivity|]. cbn [length] in L. cbn [andb].
    destruct (x =?c c_dollar) eqn:E1.
    - destruct s as [|o s]; [eexists; split; reflexivity|]. cbn [comment]. destruct ((o =?c c_lparen) || (o =?c c_lbrace)) eqn:E2.
      + set (cl := if o =?c c_lparen then c_rparen else c_rbrace). change (closing o) with cl.
        assert (N : cl <> c_bslash) by (unfold cl; destruct (o =?c c_lparen); discriminate).
        destruct (skip_comment o cl s 0 (o :: x :: rp) N) as (rp' & F & C & B & LL). rewrite C. cbn [length] in L.
        destruct (skip_ref o cl 0 (o :: x :: rp) s) as [rp1 r]. cbn [fst snd] in *. subst rp'.
        destruct (IH r rp1 ltac:(lia)) as (f & -> & R). exists f. split; [reflexivity|]. rewrite R. destruct r as [|y r]; [reflexivity|]. rewrite B by discriminate. reflexivity.
      + cbn [length] in L. destruct (IH s (o :: x :: rp) ltac:(lia)) as (f & -> & R). exists f. split; [reflexivity|]. rewrite R. cbn [count_bs]. destruct (o =?c c_bslash); [|reflexivity].
        apply eqc_true in E1. subst x. reflexivity.
    - unfold is_hash at 1. destruct (x =?c "#") eqn:E2.
      + destruct (Nat.even (count_bs rp)); [eexists; split; reflexivity|]. apply eqc_true in E2. subst x. match goal with |- context [find_map_unquote_loop _ _ _ ?q s] => destruct (IH s q ltac:(lia)) as (f & -> & R) end.
        exists f. split; [reflexivity|]. rewrite R. reflexivity.
      + destruct (IH s (x :: rp) ltac:(lia)) as (f & -> & R). exists f. split; [reflexivity|]. rewrite R. cbn [count_bs]. destruct (x =?c c_bslash); reflexivity. }
  intros fuel rp L. apply G. exact L.
Qed.
Lemma descr_spec c d : descr c = Some d <-> c = s2l "#: " ++ d.
Proof.
  split.
  - destruct c as [|a [|b [|e t]]]; try discriminate. cbn [descr]. destruct (a =?c "#") eqn:E1; [|discriminate]. destruct (b =?c c_colon) eqn:E2; [|discriminate]. destruct (e =?c c_sp) eqn:E3; [|discriminate].
    cbn [andb]. intros X. injection X as ->. apply eqc_true in E1. apply eqc_true in E2. apply eqc_true in E3. subst. reflexivity.
  - intros ->. reflexivity.
Qed.
Lemma remove_describes line d n s : describes line d -> remove_comments line n s = Some (mkst (Some d) (td s) n (frames s) (out s)).
Proof.
  intros D. unfold remove_comments, find_map_unquote. destruct (find_comment line (S (length line)) [] ltac:(lia)) as (f & -> & R). cbn [count_bs] in R. rewrite R, D.
  assert (E : descr (s2l "#: " ++ d) = Some d) by (apply descr_spec; reflexivity). rewrite E. reflexivity.
Qed.
Lemma remove_quiet line n s : quiet line -> remove_comments line n s = Some s.
Proof.
  intros D. unfold remove_comments, find_map_unquote. destruct (find_comment line (S (length line)) [] ltac:(lia)) as (f & -> & R). cbn [count_bs] in R. rewrite R.
  destruct (comment (Txt 0) line) as [c|] eqn:C; [|reflexivity]. destruct (descr c) as [d|] eqn:E; [|reflexivity]. apply descr_spec in E. subst c. elim (D d C).
Qed.

Lemma steps_app l1 : forall s l2, steps s (l1 ++ l2) = match steps s l1 with Some s' => steps s' l2 | None => None end.
Proof. induction l1 as [|e l IH]; intros s l2; [reflexivity|]. cbn [app steps]. destruct (step s e); [apply IH|reflexivity]. Qed.

(** The state of the code against the state of the specification. *)
Definition inv (z : bool) (n : nat) (w : option (list str * option str)) (p : option str) (s : st) (r : list (option (list str * nat))) : Prop :=
  match w with
  | None => frames s = None :: r /\ td s = p /\ (p <> None -> tdl s <= n) /\ (pd s = None \/ (z = true /\ tdl s <= n))
  | Some (names, d) =>
      exists ts, ts <= n /\ frames s = Some (names, ts) :: r /\
        match p with
        | Some c => ts < tdl s /\ tdl s <= n /\ pd s = d /\ td s = Some c
        | None => (tdl s <= ts /\ td s = d /\ (pd s = None \/ z = true)) \/ (ts < tdl s /\ td s = None /\ pd s = None /\ d = None)
        end
  end.
Lemma record_inv z n w p s r : inv z n w p s r -> inv z n None p (record_waiting s) r /\ out (record_waiting s) = out s ++ flush w.
Proof.
  unfold inv. destruct w as [[names d]|].
  - intros (ts & L & F & K). unfold record_waiting. rewrite F. cbn [frames td pd tdl out flush]. destruct p as [c|].
    + destruct K as (A & B & C & D). assert (Q : (ts <? tdl s) = true) by (apply Nat.ltb_lt; lia). rewrite Q. repeat split; [exact D|intros _; exact B|left; reflexivity|rewrite C; reflexivity].
    + destruct K as [(A & B & C)|(A & B & C & D)].
      * assert (Q : (ts <? tdl s) = false) by (apply Nat.ltb_ge; lia). rewrite Q. repeat split; [congruence|destruct C as [C|C]; [left; exact C|right; split; [exact C|lia]]|rewrite B; reflexivity].
      * assert (Q : (ts <? tdl s) = true) by (apply Nat.ltb_lt; lia). rewrite Q. repeat split; [exact B|congruence|left; reflexivity|rewrite C, D; reflexivity].
  - intros (F & A & B & C). unfold record_waiting. rewrite F. cbn [flush]. rewrite app_nil_r. repeat split; assumption.
Qed.
Lemma reads_ok z n w p l said : reads z n w p l said -> forall s r, inv z n w p s r ->
  exists s', steps s (l ++ [Close]) = Some s' /\ frames s' = r /\ out s' = out s ++ said /\ (z = false -> td s' = None /\ pd s' = None).
Proof.
  intros R. induction R as [z n w p P|z n m w p line l said L Q R IH|z n m w p line d l said L D P R IH|z n w p l said R IH|z n p name names l said R IH|z n p l said R IH|z n l0 said0 l said R0 IH0 R IH]; intros s r I.
  - cbn [app steps step]. destruct (record_inv z n w p s r I) as ((F & A & B & C) & O). rewrite F. eexists. split; [reflexivity|]. cbn [frames out td pd]. split; [reflexivity|]. split; [exact O|].
    intros ->. destruct P as [P|P]; [discriminate|]. subst p. split; [exact A|]. destruct C as [C|[C _]]; [exact C|discriminate].
  - cbn [app steps step]. rewrite (remove_quiet line m s Q). apply (IH s r). clear -I L. unfold inv in *. destruct w as [[names d]|].
    + destruct I as (ts & X & F & K). exists ts. split; [lia|]. split; [exact F|]. destruct p as [c|]; [|exact K]. destruct K as (A & B & C & D). repeat split; try assumption; lia.
    + destruct I as (F & A & B & C). split; [exact F|]. split; [exact A|]. split; [intros X; specialize (B X); lia|]. destruct C as [C|[C D]]; [left; exact C|right; split; [exact C|lia]].
  - cbn [app steps step]. rewrite (remove_describes line d m s D). set (s1 := mkst _ _ _ _ _).
    assert (I1 : inv z m w (Some d) s1 r).
    { clear IH. unfold s1, inv in *. cbn [frames td pd tdl]. destruct w as [[names d0]|].
      - destruct I as (ts & X & F & K). exists ts. split; [lia|]. split; [exact F|]. destruct P as [P|[_ P]]; [|discriminate]. subst p.
        destruct K as [(A & B & C)|(A & B & C & E)]; repeat split; try lia; [exact B|congruence].
      - destruct I as (F & A & B & C). split; [exact F|]. split; [reflexivity|]. split; [intros _; lia|]. destruct P as [P|[P _]]; [left; congruence|right; split; [exact P|lia]]. }
    destruct (IH s1 r I1) as (s' & X1 & X2 & X3 & X4). exists s'. repeat split; assumption || (intros; apply X4; assumption).
  - cbn [app steps step]. destruct (record_inv z n w p s r I) as (I1 & O). destruct (IH _ r I1) as (s' & X1 & X2 & X3 & X4). exists s'. split; [exact X1|]. split; [exact X2|]. split; [|exact X4]. rewrite X3, O, <- app_assoc. reflexivity.
  - cbn [app steps step]. destruct I as (F & A & B & C). rewrite F. set (s1 := mkst _ _ _ _ _).
    assert (I1 : inv z n (Some (name :: names, p)) None s1 r).
    { clear IH. unfold s1, inv. cbn [frames td pd tdl]. exists n. split; [lia|]. split; [reflexivity|]. destruct (Nat.le_gt_cases (tdl s) n) as [Q|Q].
      - left. split; [exact Q|]. split; [exact A|]. destruct C as [C|[C _]]; [left; exact C|right; exact C].
      - right. destruct p as [c|]; [assert (tdl s <= n) by (apply B; discriminate); lia|]. destruct C as [C|[_ C]]; [|lia]. repeat split; assumption || lia. }
    destruct (IH s1 r I1) as (s' & X1 & X2 & X3 & X4). exists s'. repeat split; assumption || (intros; apply X4; assumption).
  - cbn [app steps step]. destruct I as (F & A & B & C). rewrite F. set (s1 := mkst _ _ _ _ _). destruct (IH s1 r) as (s' & X1 & X2 & X3 & X4); [repeat split; assumption|]. exists s'. repeat split; assumption || (intros; apply X4; assumption).
  - replace ((Open :: l0 ++ Close :: l) ++ [Close]) with (Open :: (l0 ++ [Close]) ++ (l ++ [Close])) by (cbn [app]; rewrite <- !app_assoc; reflexivity).
    cbn [steps step]. rewrite steps_app. set (s1 := mkst None None (tdl s) (None :: frames s) (out s)).
    destruct (IH0 s1 (frames s)) as (s2 & Y1 & Y2 & Y3 & Y4).
    { unfold inv, s1. cbn [frames td pd tdl]. repeat split; [congruence|left; reflexivity]. }
    rewrite Y1. destruct (Y4 eq_refl) as [Y5 Y6]. destruct I as (F & A & B & C).
    destruct (IH s2 r) as (s' & X1 & X2 & X3 & X4).
    { unfold inv. rewrite Y2. repeat split; [exact F|exact Y5|congruence|left; exact Y6]. }
    exists s'. split; [exact X1|]. split; [exact X2|]. split; [|exact X4]. rewrite X3, Y3. cbn [out s1]. rewrite <- app_assoc. reflexivity.
Qed.
