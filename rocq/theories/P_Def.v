From Verif Require Import Base S_Text M_Text M_Var M_Expand S_Expand S_Eval M_Def S_Def P_Text.
Open Scope string_scope.
Open Scope list_scope.
Open Scope nat_scope.

Lemma brackets_ne : forall op cl, brackets op cl -> op <> cl.
Proof. intros op cl [[-> ->]|[-> ->]]; discriminate. Qed.

Section Skip.
  Variables op cl : ascii.
  Hypothesis ne : op <> cl.

  Lemma skip_nested : forall t, nested op cl t -> forall k r,
    skip_ref op cl (S k) (t ++ r) = (t ++ fst (skip_ref op cl (S k) r), snd (skip_ref op cl (S k) r)).
  Proof.
    intros t H. induction H as [|c t H1 H2 H IH|a b Ha IHa Hb IHb]; intros k r.
    - cbn [app]. destruct (skip_ref op cl (S k) r); reflexivity.
    - cbn [app skip_ref]. rewrite (proj2 (Ascii.eqb_neq c cl) H2), (proj2 (Ascii.eqb_neq c op) H1). cbn [andb].
      rewrite IH. reflexivity.
    - cbn [app skip_ref]. rewrite (proj2 (Ascii.eqb_neq op cl) ne), Ascii.eqb_refl. cbn [andb].
      replace ((a ++ cl :: b) ++ r) with (a ++ (cl :: b ++ r)) by (rewrite <- app_assoc; reflexivity).
      rewrite IHa. cbn [skip_ref]. rewrite Ascii.eqb_refl. cbn [andb Nat.eqb pred].
      destruct (cl =?c op) eqn:E; [apply eqc_true in E; congruence|].
      rewrite IHb. cbn [fst snd]. rewrite <- app_assoc. reflexivity.
  Qed.
  Lemma skip_call : forall t r, nested op cl t -> skip_ref op cl 1 (t ++ cl :: r) = (t ++ [cl], r).
  Proof.
    intros t r H. rewrite skip_nested by exact H. cbn [skip_ref]. rewrite Ascii.eqb_refl. reflexivity.
  Qed.

  Inductive nests : nat -> str -> Prop :=
  | nests_0 t : nested op cl t -> nests 0 (t ++ [cl])
  | nests_S k t r : nested op cl t -> nests k r -> nests (S k) (t ++ cl :: r).
  Lemma nests_char : forall c k a, c <> op -> c <> cl -> nests k a -> nests k (c :: a).
  Proof.
    intros c k a H1 H2 H. destruct H as [t H|k t r H Hr].
    - apply (nests_0 (c :: t)). apply ne_char; assumption.
    - apply (nests_S k (c :: t)); [apply ne_char|]; assumption.
  Qed.
  Lemma nests_op : forall k a, nests (S k) a -> nests k (op :: a).
  Proof.
    intros k a H. remember (S k) as m eqn:E. destruct H as [t H|j t r H Hr]; [discriminate|]. injection E as ->.
    destruct Hr as [t2 H2|k t2 r2 H2 Hr2].
    - replace (op :: t ++ cl :: t2 ++ [cl]) with ((op :: t ++ cl :: t2) ++ [cl]) by (cbn; rewrite <- app_assoc; reflexivity).
      apply nests_0. apply ne_paren; assumption.
    - replace (op :: t ++ cl :: t2 ++ cl :: r2) with ((op :: t ++ cl :: t2) ++ cl :: r2) by (cbn; rewrite <- app_assoc; reflexivity).
      apply nests_S; [apply ne_paren|]; assumption.
  Qed.
  Lemma skip_inv : forall p k a b, skip_ref op cl (S k) p = (a, b) -> p = a ++ b /\ (b <> [] -> nests k a).
  Proof.
    induction p as [|x p IH]; intros k a b H.
    - cbn in H. injection H as <- <-. split; [reflexivity|congruence].
    - cbn [skip_ref] in H. destruct (x =?c cl) eqn:E; [apply eqc_true in E|apply eqc_false in E].
      + cbn [andb] in H. destruct (x =?c op) eqn:E2; [apply eqc_true in E2; congruence|].
        destruct k as [|k].
        * cbn in H. injection H as <- <-. split; [reflexivity|]. intros _. subst x. apply (nests_0 []). apply ne_nil.
        * cbn [Nat.eqb pred] in H. destruct (skip_ref op cl (S k) p) as [a' b'] eqn:Ep. injection H as <- <-.
          destruct (IH _ _ _ Ep) as [-> Hb]. split; [reflexivity|]. intros Hn. subst x.
          apply (nests_S k []); [apply ne_nil|exact (Hb Hn)].
      + cbn [andb] in H. destruct (x =?c op) eqn:E2; [apply eqc_true in E2|apply eqc_false in E2].
        * destruct (skip_ref op cl (S (S k)) p) as [a' b'] eqn:Ep. injection H as <- <-.
          destruct (IH _ _ _ Ep) as [-> Hb]. split; [reflexivity|]. intros Hn. subst x. apply nests_op. exact (Hb Hn).
        * destruct (skip_ref op cl (S k) p) as [a' b'] eqn:Ep. injection H as <- <-.
          destruct (IH _ _ _ Ep) as [-> Hb]. split; [reflexivity|]. intros Hn. apply nests_char; auto.
  Qed.
End Skip.

Lemma eqc_neq : forall a b : ascii, a <> b -> (a =?c b) = false.
Proof. intros a b H. apply Ascii.eqb_neq. exact H. Qed.

(** Reading an operator. *)
Lemma assign_op_ok : forall f op r, operator f op ->
  exists c o', s2l op = c :: o' /\ isspace c = false /\ (c =?c c_hash) = false /\ (c =?c c_dollar) = false /\ isblank c = false /\
    assign_op c (o' ++ r) = Some (f, r).
Proof. intros f op r H. destruct H; cbn; do 2 eexists; repeat split; reflexivity. Qed.

Lemma assign_op_inv : forall c p f v, assign_op c p = Some (f, v) ->
  exists op, operator f op /\ c :: p = s2l op ++ v /\ (op = "=" -> c = c_eq) /\ (op <> "=" -> c <> c_eq).
Proof.
  intros c p f v H. unfold assign_op in H.
  destruct (c =?c c_eq) eqn:E; [apply eqc_true in E|apply eqc_false in E].
  - injection H as <- <-. subst c. exists "=". repeat split; try reflexivity; [apply op_recursive|congruence].
  - destruct p as [|x p]; [discriminate|].
    destruct (x =?c c_eq) eqn:Ex; [apply eqc_true in Ex|apply eqc_false in Ex].
    + subst x.
      destruct (c =?c c_colon) eqn:E1; [apply eqc_true in E1; injection H as <- <-; subst c; exists ":="; repeat split; try reflexivity; [apply op_simple|discriminate|discriminate]|].
      destruct (c =?c c_plus) eqn:E2; [apply eqc_true in E2; injection H as <- <-; subst c; exists "+="; repeat split; try reflexivity; [apply op_append|discriminate|discriminate]|].
      destruct (c =?c c_quest) eqn:E3; [apply eqc_true in E3; injection H as <- <-; subst c; exists "?="; repeat split; try reflexivity; [apply op_conditional|discriminate|discriminate]|].
      destruct (c =?c c_bang) eqn:E4; [apply eqc_true in E4; injection H as <- <-; subst c; exists "!="; repeat split; try reflexivity; [apply op_shell|discriminate|discriminate]|].
      discriminate.
    + destruct (c =?c c_colon) eqn:E1; [apply eqc_true in E1|discriminate].
      destruct (x =?c c_colon) eqn:E2; [apply eqc_true in E2|discriminate].
      destruct p as [|y p]; [discriminate|]. destruct (y =?c c_eq) eqn:E3; [apply eqc_true in E3|discriminate].
      injection H as <- <-. subst. exists "::=". repeat split; try reflexivity; [apply op_posix|discriminate|discriminate].
Qed.

(** An ordinary character in front of something else than an equals sign, or one that makes no
    operator with it, starts no operator. *)
Lemma assign_op_none : forall c p, ordinary c -> (forall p', p = c_eq :: p' -> ~ In c (s2l "+?!")) -> assign_op c p = None.
Proof.
  intros c p [Hb Ho] Hp. unfold assign_op.
  rewrite (eqc_neq c c_eq) by (intros ->; apply Ho; cbn; auto).
  destruct p as [|x p]; [reflexivity|].
  rewrite (eqc_neq c c_colon) by (intros ->; apply Ho; cbn; auto).
  destruct (x =?c c_eq) eqn:Ex; [|reflexivity]. apply eqc_true in Ex. subst x.
  specialize (Hp p eq_refl).
  rewrite (eqc_neq c c_plus), (eqc_neq c c_quest), (eqc_neq c c_bang); [reflexivity|..]; intros ->; apply Hp; cbn; auto.
Qed.

Lemma ordinary_tests : forall c, ordinary c ->
  (c =?c c_hash) = false /\ (c =?c c_dollar) = false /\ isblank c = false /\ (c =?c c_colon) = false.
Proof.
  intros c [H1 H2]. repeat split; [apply eqc_neq|apply eqc_neq|exact H1|apply eqc_neq]; intros ->; apply H2; cbn; auto.
Qed.

Definition gap (sp : str) : Prop := sp = [] \/ exists b sp', sp = b :: sp' /\ isblank b = true /\ all_space sp'.

Lemma next_token_id : forall v, (forall c t, v = c :: t -> isspace c = false) -> next_token v = v.
Proof. intros [|c v] H; [reflexivity|]. cbn. rewrite (H c v eq_refl). reflexivity. Qed.

Lemma parse_ok : forall n tight, name_text tight n -> forall sp op f rest acc k,
  gap sp -> operator f op -> (sp = [] /\ op = "=" -> tight) ->
  length (n ++ sp ++ s2l op ++ rest) < k ->
  parse_loop k acc (n ++ sp ++ s2l op ++ rest) = Some (acc ++ n, f, next_token rest).
Proof.
  intros n tight H. induction H as [|c n Ho Ht H IH|d n H1 H2 H IH|o cl t n Hbr Hn H IH]; intros sp op f rest acc k Hg Hop Hti Hk.
  - destruct (assign_op_ok f op rest Hop) as (c & o' & Eo & Hs & T1 & T2 & T3 & Ha).
    destruct k as [|k]; [lia|]. cbn [app] in *. rewrite Eo in *. rewrite app_nil_r.
    destruct Hg as [->|(b & sp' & -> & Hb & Hsp)].
    + cbn [app parse_loop]. rewrite T1, T2, T3, Ha. reflexivity.
    + cbn [app parse_loop]. rewrite (eqc_neq b c_hash), (eqc_neq b c_dollar) by (intros ->; discriminate).
      rewrite Hb. rewrite next_token_space by exact Hsp. rewrite next_token_stop by exact Hs. rewrite Ha. reflexivity.
  - destruct k as [|k]; [lia|]. cbn [app parse_loop]. destruct (ordinary_tests _ Ho) as (T1 & T2 & T3 & T4).
    rewrite T1, T2, T3, T4.
    rewrite assign_op_none; [|exact Ho|].
    + rewrite IH with (f := f); [rewrite <- app_assoc; reflexivity|assumption..|cbn [app length] in Hk; lia].
    + intros p' E. destruct n as [|c' n'].
      * destruct Hg as [->|(b & sp' & -> & Hb & Hsp)].
        -- cbn [app] in E. apply Ht; [|reflexivity]. apply Hti. split; [reflexivity|].
           destruct Hop; cbn in E; try discriminate. reflexivity.
        -- cbn [app] in E. injection E as -> _. discriminate.
      * exfalso. cbn [app] in E. injection E as -> _. inversion H; subst.
        match goal with K : ordinary _ |- _ => destruct K as [_ K]; apply K; cbn; auto end.
  - destruct k as [|k]; [lia|]. cbn [app parse_loop].
    change (c_dollar =?c c_hash) with false. change (c_dollar =?c c_dollar) with true. cbn match.
    rewrite (eqc_neq d c_lparen H1), (eqc_neq d c_lbrace H2). cbn [orb].
    rewrite IH with (f := f); [rewrite <- app_assoc; reflexivity|assumption..|cbn [app length] in Hk; lia].
  - destruct k as [|k]; [lia|]. cbn [app parse_loop].
    change (c_dollar =?c c_hash) with false. change (c_dollar =?c c_dollar) with true. cbn match.
    assert (E : (o =?c c_lparen) || (o =?c c_lbrace) = true /\ (if o =?c c_lparen then c_rparen else c_rbrace) = cl)
      by (destruct Hbr as [[-> ->]|[-> ->]]; split; reflexivity).
    destruct E as [E1 E2]. rewrite E1, E2.
    replace ((t ++ cl :: n) ++ sp ++ s2l op ++ rest) with (t ++ cl :: (n ++ sp ++ s2l op ++ rest)) by (rewrite <- app_assoc; reflexivity).
    rewrite skip_call by (try apply brackets_ne; assumption).
    rewrite IH with (f := f); [|assumption..|].
    + rewrite <- !app_assoc. cbn [app]. rewrite <- !app_assoc. reflexivity.
    + repeat (cbn [app length] in *; rewrite ?app_length in * ). lia.
Qed.

Lemma next_token_dec : forall s, exists sp, all_space sp /\ s = sp ++ next_token s /\ (forall c t, next_token s = c :: t -> isspace c = false).
Proof.
  induction s as [|c s IH]; [exists []; repeat split; [intros ? []|discriminate]|].
  cbn [next_token]. destruct (isspace c) eqn:E.
  - destruct IH as (sp & H1 & H2 & H3). exists (c :: sp). repeat split; [|cbn; congruence|exact H3].
    intros x [<-|Hx]; auto.
  - exists []. repeat split; [intros ? []|]. intros ? ? H. injection H as <- <-. exact E.
Qed.

Lemma parse_inv : forall k acc p n f v, parse_loop k acc p = Some (n, f, v) ->
  exists nm sp op post, n = acc ++ nm /\ p = nm ++ sp ++ s2l op ++ post ++ v /\ operator f op /\ gap sp /\ all_space post /\
    (forall c t, v = c :: t -> isspace c = false) /\ name_text (sp = [] /\ op = "=") nm.
Proof.
  induction k as [|k IH]; intros acc p n f v H; [discriminate|].
  cbn [parse_loop] in H. destruct p as [|c p]; [discriminate|].
  destruct (c =?c c_hash) eqn:E1; [discriminate|apply eqc_false in E1].
  destruct (c =?c c_dollar) eqn:E2; [apply eqc_true in E2; subst c|apply eqc_false in E2].
  - destruct p as [|d p]; [discriminate|].
    destruct ((d =?c c_lparen) || (d =?c c_lbrace)) eqn:E3.
    + set (cl := if d =?c c_lparen then c_rparen else c_rbrace) in *.
      assert (Hbr : brackets d cl).
      { unfold cl. apply orb_true_iff in E3. destruct E3 as [E3|E3]; apply eqc_true in E3; subst d;
          [left|right]; split; reflexivity. }
      destruct (skip_ref d cl 1 p) as [a b] eqn:Es.
      destruct (skip_inv d cl (brackets_ne _ _ Hbr) p 0 a b Es) as [-> Hn].
      destruct (IH _ _ _ _ _ H) as (nm & sp & op & post & H1 & H2 & H3 & H4 & H5 & H6 & H7).
      assert (Hb : b <> []).
      { intros ->. destruct k; discriminate H. }
      specialize (Hn Hb). remember 0 as z eqn:Z. destruct Hn as [t Ht|? ? ? ? ?]; [|discriminate].
      exists (c_dollar :: d :: t ++ cl :: nm), sp, op, post. split; [|split; [|split; [exact H3|split; [exact H4|split; [exact H5|split; [exact H6|]]]]]].
      * rewrite H1, <- !app_assoc. cbn. rewrite <- !app_assoc. reflexivity.
      * rewrite H2. cbn. rewrite <- !app_assoc. reflexivity.
      * apply nt_long; assumption.
    + apply orb_false_iff in E3. destruct E3 as [E3 E4]. apply eqc_false in E3, E4.
      destruct (IH _ _ _ _ _ H) as (nm & sp & op & post & H1 & H2 & H3 & H4 & H5 & H6 & H7).
      exists (c_dollar :: d :: nm), sp, op, post. split; [|split; [|split; [exact H3|split; [exact H4|split; [exact H5|split; [exact H6|]]]]]].
      * rewrite H1, <- !app_assoc. reflexivity.
      * rewrite H2. reflexivity.
      * apply nt_short; assumption.
  - destruct (isblank c) eqn:E3.
    + destruct (next_token_dec p) as (sp & Hs1 & Hs2 & _).
      destruct (next_token p) as [|d q] eqn:En; [discriminate|].
      destruct (assign_op d q) as [[f' v']|] eqn:Ea; [|discriminate]. injection H as <- <- <-.
      destruct (assign_op_inv _ _ _ _ Ea) as (op & Ho & Eq & _ & _).
      destruct (next_token_dec v') as (post & Hp1 & Hp2 & Hp3).
      exists [], (c :: sp), op, post. split; [rewrite app_nil_r; reflexivity|]. split; [|split; [exact Ho|split; [|split; [exact Hp1|split; [exact Hp3|apply nt_nil]]]]].
      * rewrite Hs2 at 1. cbn [app]. rewrite Eq. rewrite Hp2 at 1. reflexivity.
      * right. exists c, sp. repeat split; assumption.
    + destruct (assign_op c p) as [[f' v']|] eqn:Ea.
      * injection H as <- <- <-.
        destruct (assign_op_inv _ _ _ _ Ea) as (op & Ho & Eq & _ & _).
        destruct (next_token_dec v') as (post & Hp1 & Hp2 & Hp3).
        exists [], [], op, post. split; [rewrite app_nil_r; reflexivity|]. split; [|split; [exact Ho|split; [|split; [exact Hp1|split; [exact Hp3|apply nt_nil]]]]].
        -- cbn [app]. rewrite Eq. rewrite Hp2 at 1. reflexivity.
        -- left. reflexivity.
      * destruct (c =?c c_colon) eqn:E4; [discriminate|apply eqc_false in E4].
        destruct (IH _ _ _ _ _ H) as (nm & sp & op & post & H1 & H2 & H3 & H4 & H5 & H6 & H7).
        exists (c :: nm), sp, op, post. split; [|split; [|split; [exact H3|split; [exact H4|split; [exact H5|split; [exact H6|]]]]]].
        -- rewrite H1, <- !app_assoc. reflexivity.
        -- rewrite H2. reflexivity.
        -- assert (Hc : c <> c_eq) by (intros ->; discriminate Ea).
           apply nt_char; [|intros [-> ->] ->|exact H7].
           ++ split; [exact E3|]. cbn. intros [X|[X|[X|[X|[]]]]]; [apply E1|apply E2|apply Hc|apply E4]; symmetry; exact X.
           ++ cbn [app] in H2. subst p. cbn in Ea. unfold assign_op in Ea.
              rewrite (eqc_neq c c_eq Hc) in Ea. cbn [s2l list_ascii_of_string app] in Ea.
              change (("="%char : ascii) =?c c_eq) with true in Ea. cbn match in Ea.
              intros Hin. cbn in Hin.
              destruct Hin as [X|[X|[X|[]]]]; subst c; discriminate Ea.
Qed.

Lemma parse_iff : forall line n f v, parse_variable_definition line = Some (n, f, v) <-> defines line n f v.
Proof.
  intros line n f v. unfold parse_variable_definition, defines. split.
  - intros H. destruct (next_token_dec line) as (lead & L1 & L2 & L3).
    destruct (parse_inv _ _ _ _ _ _ H) as (nm & sp & op & post & H1 & H2 & H3 & H4 & H5 & H6 & H7). cbn in H1. subst nm.
    exists lead, sp, op, post. split; [congruence|]. split; [exact H3|]. split; [exact L1|]. split; [exact H5|]. split; [exact H6|].
    split; [|split; [exact H4|exact H7]].
    intros c t ->. apply (L3 c (t ++ sp ++ s2l op ++ post ++ v)). rewrite H2. reflexivity.
  - intros (lead & sp & op & post & -> & Ho & Hl & Hp & Hv & Hn & Hg & Ht).
    rewrite next_token_space by exact Hl.
    assert (E : next_token (n ++ sp ++ s2l op ++ post ++ v) = n ++ sp ++ s2l op ++ post ++ v \/ n = [] /\ next_token (n ++ sp ++ s2l op ++ post ++ v) = n ++ [] ++ s2l op ++ post ++ v).
    { destruct (assign_op_ok f op [] Ho) as (c & o' & Eo & Hs & _).
      destruct n as [|x n]; [|left; apply next_token_stop; apply (Hn x n eq_refl)].
      right. split; [reflexivity|]. cbn [app]. rewrite Eo.
      destruct Hg as [->|(b & sp' & -> & Hb & Hsp)].
      - cbn [app]. apply next_token_stop. exact Hs.
      - rewrite next_token_space; [apply next_token_stop; exact Hs|].
        intros y [<-|Hy]; [apply isblank_isspace; exact Hb|auto]. }
    destruct E as [E|[-> E]]; rewrite E.
    + rewrite (parse_ok n _ Ht sp op f (post ++ v) [] _ Hg Ho (fun x => x)); [|lia].
      rewrite next_token_space by exact Hp. rewrite next_token_id by exact Hv. reflexivity.
    + rewrite (parse_ok [] True (nt_nil _) [] op f (post ++ v) [] _ (or_introl eq_refl) Ho (fun _ => Logic.I)); [|lia].
      rewrite next_token_space by exact Hp. rewrite next_token_id by exact Hv. reflexivity.
Qed.
