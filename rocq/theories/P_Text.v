From Verif Require Import Base M_Hash M_Quote S_Quote P_Quote M_Text S_Text.

(** ** Words *)
Lemma words_from_app : forall s cur, no_space s -> forall r,
  words_from cur (s ++ r) = words_from (cur ++ s) r.
Proof.
  induction s as [|c s IH]; intros cur Hs r; simpl.
  - rewrite app_nil_r. reflexivity.
  - rewrite (Hs c) by (left; reflexivity). rewrite IH by (intros d Hd; apply Hs; right; exact Hd).
    rewrite <- app_assoc. reflexivity.
Qed.

Lemma words_word : forall w r, w <> [] -> no_space w -> starts_space r ->
  words (w ++ r) = w :: words r.
Proof.
  intros w r Hne Hw Hr. unfold words. rewrite words_from_app by exact Hw. simpl.
  destruct r as [|c r]; simpl in *.
  - destruct w; [contradiction|reflexivity].
  - rewrite Hr. destruct w; [contradiction|reflexivity].
Qed.

Lemma words_space : forall sp r, all_space sp -> words (sp ++ r) = words r.
Proof.
  intros sp r. induction sp as [|c sp IH]; intros H; [reflexivity|].
  unfold words. simpl. rewrite (H c) by (left; reflexivity).
  apply IH. intros d Hd. apply H. right. exact Hd.
Qed.

Lemma words_all_space : forall sp, all_space sp -> words sp = [].
Proof. intros sp H. rewrite <- (app_nil_r sp), words_space by exact H. reflexivity. Qed.

Lemma next_token_spec : forall s, exists sp, all_space sp /\ s = sp ++ next_token s /\
  (forall c r, next_token s = c :: r -> isspace c = false).
Proof.
  induction s as [|c s IH]; simpl.
  - exists []. split; [intros d []|]. split; [reflexivity|]. intros c r E. discriminate.
  - destruct (isspace c) eqn:E.
    + destruct IH as [sp [H1 [H2 H3]]]. exists (c :: sp). split.
      * intros d [<-|Hd]; [exact E|apply H1; exact Hd].
      * split; [simpl; rewrite <- H2; reflexivity|exact H3].
    + exists []. split; [intros d []|]. split; [reflexivity|]. intros d r Er. inversion Er. congruence.
Qed.

Lemma end_of_token_spec : forall s w r, end_of_token s = (w, r) ->
  s = w ++ r /\ no_space w /\ starts_space r.
Proof.
  induction s as [|c s IH]; intros w r H; simpl in H.
  - inversion H. split; [reflexivity|]. split; [intros d []|exact I].
  - destruct (isspace c) eqn:E.
    + inversion H. split; [reflexivity|]. split; [intros d []|exact E].
    + destruct (end_of_token s) as [w1 r1]. inversion H; subst.
      destruct (IH w1 r eq_refl) as [H1 [H2 H3]]. split; [simpl; rewrite <- H1; reflexivity|].
      split; [|exact H3]. intros d [<-|Hd]; [exact E|apply H2; exact Hd].
Qed.

Lemma fnt_none : forall s, find_next_token s = None -> all_space s.
Proof.
  intros s H. unfold find_next_token in H. destruct (next_token_spec s) as [sp [H1 [H2 _]]].
  destruct (next_token s); [|discriminate]. rewrite app_nil_r in H2. rewrite H2; exact H1.
Qed.

Lemma fnt_some : forall s w r, find_next_token s = Some (w, r) ->
  exists sp, all_space sp /\ s = sp ++ w ++ r /\ w <> [] /\ no_space w /\ starts_space r /\
             next_token s = w ++ r.
Proof.
  intros s w r H. unfold find_next_token in H. destruct (next_token_spec s) as [sp [H1 [H2 H3]]].
  destruct (next_token s) as [|c p] eqn:E; [discriminate|].
  assert (H4 : end_of_token (c :: p) = (w, r)) by congruence. destruct (end_of_token_spec _ _ _ H4) as [H5 [H6 H7]].
  exists sp. split; [exact H1|]. split; [rewrite <- H5; exact H2|]. split.
  - intros ->. simpl in H4. rewrite (H3 c p eq_refl) in H4. destruct (end_of_token p). discriminate.
  - split; [exact H6|]. split; [exact H7|exact H5].
Qed.

Lemma words_fnt : forall s, words s =
  match find_next_token s with None => [] | Some (w, r) => w :: words r end.
Proof.
  intros s. destruct (find_next_token s) as [[w r]|] eqn:E.
  - destruct (fnt_some _ _ _ E) as [sp [H1 [H2 [H3 [H4 [H5 _]]]]]]. rewrite H2 at 1.
    rewrite words_space by exact H1. apply words_word; assumption.
  - apply words_all_space. apply fnt_none. exact E.
Qed.

Lemma fnt_len : forall s w r, find_next_token s = Some (w, r) -> length r < length s.
Proof.
  intros s w r H. destruct (fnt_some _ _ _ H) as [sp [_ [H2 [H3 _]]]]. rewrite H2, !app_length.
  destruct w; [contradiction|]. simpl. lia.
Qed.

Lemma words_nil : words [] = []. Proof. reflexivity. Qed.

Lemma tok_loop_words : forall S (f : S -> str -> S) fuel s st, length s < fuel ->
  tok_loop f fuel st s = Some (fold_left f (words s) st).
Proof.
  intros S f. induction fuel as [|k IH]; intros s st H; [lia|]. cbn [tok_loop]. rewrite words_fnt.
  destruct (find_next_token s) as [[w r]|] eqn:E; [|reflexivity].
  apply fnt_len in E. simpl. apply IH. lia.
Qed.

Lemma each_token_words : forall S (f : S -> str -> S) st s,
  each_token f st s = Some (fold_left f (words s) st).
Proof. intros S f st s. unfold each_token. apply tok_loop_words. lia. Qed.

Lemma words_props : forall s w, In w (words s) -> w <> [] /\ no_space w.
Proof.
  intros s. remember (length s) as n eqn:En. revert s En.
  induction n as [n IH] using lt_wf_ind. intros s En w Hw. rewrite words_fnt in Hw.
  destruct (find_next_token s) as [[w1 r]|] eqn:E; [|destruct Hw].
  destruct Hw as [<-|Hw].
  - destruct (fnt_some _ _ _ E) as [sp [_ [_ [H3 [H4 _]]]]]. split; assumption.
  - apply (IH (length r)) with (s := r); auto. subst n. eapply fnt_len. exact E.
Qed.

Lemma unwords_cons : forall w ws, ws <> [] -> unwords (w :: ws) = w ++ c_sp :: unwords ws.
Proof. intros w [|x ws] H; [contradiction|reflexivity]. Qed.

(** ** The emit loop *)
Definition emit (g : str -> option str) (o : obuf) (w : str) : obuf :=
  match g w with Some x => put_sp (put o x) | None => o end.

Fixpoint somes (l : list (option str)) : list str :=
  match l with
  | [] => [] | Some x :: l' => x :: somes l' | None :: l' => somes l'
  end.

Lemma emit_fold : forall g ws o,
  otext (fold_left (emit g) ws o) =
  otext o ++ concat (map (fun x => x ++ [c_sp]) (somes (map g ws))) /\
  doneany (fold_left (emit g) ws o) = doneany o || negb (length (somes (map g ws)) =? 0).
Proof.
  intros g. induction ws as [|w ws IH]; intros o; simpl.
  - rewrite app_nil_r, orb_false_r. split; reflexivity.
  - destruct (IH (emit g o w)) as [H1 H2]. rewrite H1, H2. unfold emit.
    destruct (g w) as [x|]; simpl.
    + rewrite <- !app_assoc. simpl. rewrite orb_true_r. split; reflexivity.
    + split; reflexivity.
Qed.

Lemma unwords_removelast : forall l, l <> [] ->
  removelast (concat (map (fun x => x ++ [c_sp]) l)) = unwords l.
Proof.
  induction l as [|x l IH]; intros H; [contradiction|]. destruct l as [|y l].
  - simpl. rewrite app_nil_r, removelast_last. reflexivity.
  - rewrite unwords_cons by discriminate. rewrite <- IH by discriminate.
    cbn [map concat]. rewrite <- app_assoc. rewrite removelast_app.
    + simpl ([c_sp] ++ _). f_equal.
      remember (concat (map (fun x0 => x0 ++ [c_sp]) (y :: l))) as z eqn:Ez.
      cbn [map concat] in Ez. rewrite <- Ez. destruct z as [|c z]; [|reflexivity].
      destruct y; discriminate.
    + simpl. discriminate.
Qed.

Lemma kill_emit : forall g ws,
  kill_last (fold_left (emit g) ws o0) = unwords (somes (map g ws)).
Proof.
  intros g ws. destruct (emit_fold g ws o0) as [H1 H2]. unfold kill_last. rewrite H1, H2. simpl.
  destruct (somes (map g ws)) as [|x l] eqn:E; [reflexivity|]. cbn [length Nat.eqb negb].
  apply unwords_removelast. discriminate.
Qed.

Lemma fold_left_ext : forall A B (f g : A -> B -> A) l a,
  (forall a b, f a b = g a b) -> fold_left f l a = fold_left g l a.
Proof. intros A B f g l. induction l as [|x l IH]; intros a H; simpl; [reflexivity|]. rewrite H. auto. Qed.

Lemma each_emit : forall f g a, (forall o w, f o w = emit g o w) ->
  option_map kill_last (each_token f o0 a) = Some (unwords (somes (map g (words a)))).
Proof.
  intros f g a H. rewrite each_token_words. simpl. rewrite (fold_left_ext _ _ f (emit g)) by exact H.
  rewrite kill_emit. reflexivity.
Qed.

Lemma somes_map_Some : forall (f : str -> str) l, somes (map (fun w => Some (f w)) l) = map f l.
Proof. intros f l. induction l; simpl; congruence. Qed.

(** ** strip *)
Lemma fnt_eot : forall p, p <> [] ->
  match find_next_token p with
  | None => fst (end_of_token (next_token p)) = []
  | Some (w, r) => end_of_token (next_token p) = (w, r)
  end.
Proof.
  intros p Hp. unfold find_next_token. destruct (next_token p); [reflexivity|].
  destruct (end_of_token (a :: s)); reflexivity.
Qed.

Lemma strip_loop : forall fuel p o, length p < fuel ->
  func_strip_loop fuel o p = tok_loop (emit (fun w => Some w)) fuel o p.
Proof.
  induction fuel as [|k IH]; intros p o H; [reflexivity|]. cbn [func_strip_loop tok_loop].
  destruct p as [|c p].
  - reflexivity.
  - pose proof (fnt_eot (c :: p)) as F.
    destruct (find_next_token (c :: p)) as [[w r]|] eqn:E.
    + rewrite F by discriminate. destruct (fnt_some _ _ _ E) as [sp [_ [_ [Hw _]]]].
      destruct w as [|d w]; [contradiction|]. apply fnt_len in E. simpl in H, E.
      rewrite IH by lia. reflexivity.
    + destruct (end_of_token (next_token (c :: p))) as [w r]. simpl in F. rewrite F by discriminate.
      reflexivity.
Qed.

Lemma func_strip_spec : forall a, func_strip a = Some (unwords (words a)).
Proof.
  intros a. unfold func_strip. rewrite strip_loop by lia.
  change (tok_loop (emit (fun w => Some w)) (S (length a)) o0 a)
    with (each_token (emit (fun w => Some w)) o0 a).
  rewrite (each_emit _ (fun w => Some w)) by reflexivity.
  rewrite (somes_map_Some (fun w => w)), map_id. reflexivity.
Qed.

Lemma words_unwords : forall ws, (forall w, In w ws -> w <> [] /\ no_space w) ->
  words (unwords ws) = ws.
Proof.
  induction ws as [|w ws IH]; intros H; [reflexivity|].
  destruct (H w (or_introl eq_refl)) as [H1 H2].
  destruct ws as [|x ws].
  - simpl. rewrite <- (app_nil_r w) at 1. rewrite words_word; auto. exact I.
  - rewrite unwords_cons by discriminate. rewrite words_word; auto; [|reflexivity].
    f_equal. change (c_sp :: unwords (x :: ws)) with ([c_sp] ++ unwords (x :: ws)).
    rewrite words_space by (intros c [<-|[]]; reflexivity). apply IH.
    intros y Hy. apply H. right. exact Hy.
Qed.

Lemma words_strip : forall a, words (unwords (words a)) = words a.
Proof. intros a. apply words_unwords. intros w Hw. eapply words_props. exact Hw. Qed.

(** ** words, word, firstword, lastword, wordlist *)
Lemma count_words_spec : forall a, count_words a = Some (length (words a)).
Proof.
  intros a. unfold count_words. rewrite each_token_words. f_equal.
  assert (G : forall l n, fold_left (fun n (_ : str) => S n) l n = n + length l).
  { induction l as [|x l IH]; intros n; simpl; [lia|]. rewrite IH. lia. }
  rewrite G. reflexivity.
Qed.

Lemma func_firstword_spec : forall a, func_firstword a = hd [] (words a).
Proof.
  intros a. unfold func_firstword. rewrite words_fnt. destruct (find_next_token a) as [[w r]|]; reflexivity.
Qed.

Lemma func_lastword_spec : forall a, func_lastword a = Some (last (words a) []).
Proof.
  intros a. unfold func_lastword. rewrite each_token_words. f_equal.
  assert (G : forall (l : list str) d, fold_left (fun _ w => w) l d = last l d).
  { induction l as [|x l IH]; intros d; simpl; [reflexivity|]. rewrite IH.
    destruct l; [reflexivity|]. assert (forall e e', last (s :: l) e = last (s :: l) e').
    { clear. revert s. induction l; intros s e e'; simpl; [reflexivity|]. apply (IHl a e e'). }
    apply H. }
  apply G.
Qed.

Lemma word_loop_spec : forall fuel s i, length s < fuel -> (1 <= i)%Z ->
  word_loop fuel i s = Some (nth (Z.to_nat i - 1) (words s) []).
Proof.
  induction fuel as [|k IH]; intros s i H Hi; [lia|]. cbn [word_loop]. rewrite words_fnt.
  destruct (find_next_token s) as [[w r]|] eqn:E.
  - destruct (Z.eqb_spec (i - 1) 0) as [Ez|Ez].
    + assert (i = 1%Z) by lia. subst i. reflexivity.
    + apply fnt_len in E. rewrite IH by lia.
      replace (Z.to_nat i - 1) with (S (Z.to_nat (i - 1) - 1)) by lia. reflexivity.
  - destruct (Z.to_nat i - 1); reflexivity.
Qed.

Lemma isdigit_is_dig : forall c, isdigit c = true <-> is_dig c.
Proof.
  intros c. unfold isdigit, is_dig. rewrite andb_true_iff, !Nat.leb_le. lia.
Qed.

Lemma dig_not_space : forall c, is_dig c -> isspace c = false.
Proof.
  intros c H. destruct (isspace c) eqn:E; [|reflexivity]. exfalso.
  unfold isspace, isblank in E. rewrite !orb_true_iff in E.
  unfold is_dig in H.
  repeat destruct E as [E|E]; apply eqc_true in E; subst c; vm_compute in H; lia.
Qed.

Lemma next_token_space : forall sp s, all_space sp -> next_token (sp ++ s) = next_token s.
Proof.
  induction sp as [|c sp IH]; intros s H; [reflexivity|]. simpl.
  rewrite (H c) by (left; reflexivity). apply IH. intros d Hd. apply H. right. exact Hd.
Qed.

Lemma next_token_stop : forall c s, isspace c = false -> next_token (c :: s) = c :: s.
Proof. intros c s H. simpl. rewrite H. reflexivity. Qed.

Lemma digits_val_spec : forall ds acc r, Forall is_dig ds -> starts_space r ->
  digits_val acc (ds ++ r) =
  fold_left (fun acc c => acc * 10 + (Z.of_nat (nat_of_ascii c) - 48))%Z ds acc.
Proof.
  induction ds as [|c ds IH]; intros acc r H Hr; simpl.
  - destruct r as [|c r]; [reflexivity|]. simpl in *.
    destruct (isdigit c) eqn:E; [|reflexivity].
    apply isdigit_is_dig in E. apply dig_not_space in E. congruence.
  - inversion H; subst. rewrite (proj2 (isdigit_is_dig c)) by assumption. apply IH; assumption.
Qed.

Lemma all_space_starts : forall s, all_space s -> starts_space s.
Proof. intros [|c s] H; simpl; [exact I|]. apply H. left. reflexivity. Qed.

Lemma all_space_rev : forall s, all_space s -> all_space (rev s).
Proof. intros s H c Hc. apply H. apply in_rev. exact Hc. Qed.

Lemma strip_ws_numeral : forall pre ds post, all_space pre -> all_space post -> ds <> [] ->
  Forall is_dig ds -> strip_whitespace (pre ++ ds ++ post) = ds.
Proof.
  intros pre ds post H1 H2 H3 H4. unfold strip_whitespace. rewrite next_token_space by exact H1.
  assert (N1 : next_token (ds ++ post) = ds ++ post).
  { destruct ds as [|c ds]; [contradiction|]. inversion H4; subst. apply next_token_stop.
    apply dig_not_space. assumption. }
  rewrite N1, rev_app_distr, next_token_space by (apply all_space_rev; exact H2).
  assert (N2 : next_token (rev ds) = rev ds).
  { destruct (rev ds) as [|c l] eqn:E; [reflexivity|]. apply next_token_stop.
    apply dig_not_space. rewrite Forall_forall in H4. apply H4. apply in_rev. rewrite E. left. reflexivity. }
  rewrite N2, rev_involutive. reflexivity.
Qed.

Lemma numeral_check : forall n v, numeral n v -> check_numeric n = true /\
  digits_val 0 (next_token n) = v.
Proof.
  intros n v [pre [ds [post [E [H1 [H2 [H3 [H4 Hv]]]]]]]]. subst n v. split.
  - unfold check_numeric. destruct (pre ++ ds ++ post) as [|c l] eqn:E.
    + apply app_eq_nil in E. destruct E as [_ E]. apply app_eq_nil in E. destruct E. contradiction.
    + rewrite <- E, strip_ws_numeral by assumption. apply forallb_forall. intros x Hx.
      apply isdigit_is_dig. rewrite Forall_forall in H4. apply H4. exact Hx.
  - rewrite next_token_space by exact H1.
    assert (N1 : next_token (ds ++ post) = ds ++ post).
    { destruct ds as [|c ds]; [contradiction|]. inversion H4; subst. apply next_token_stop.
      apply dig_not_space. assumption. }
    rewrite N1. apply digits_val_spec; [exact H4|]. apply all_space_starts. exact H2.
Qed.

Lemma strip_ws_decomp : forall s, exists pre post, s = pre ++ strip_whitespace s ++ post /\
  all_space pre /\ all_space post.
Proof.
  intros s. unfold strip_whitespace.
  destruct (next_token_spec s) as [pre [H1 [H2 _]]].
  destruct (next_token_spec (rev (next_token s))) as [q [H3 [H4 _]]].
  exists pre, (rev q). split; [|split; [exact H1|apply all_space_rev; exact H3]].
  rewrite H2 at 1. f_equal. rewrite <- (rev_involutive (next_token s)) at 1. rewrite H4 at 1.
  rewrite rev_app_distr. reflexivity.
Qed.

(** An argument that passes check_numeric is a numeral or blank. *)
Lemma check_numeral : forall n, check_numeric n = true ->
  (exists v, numeral n v) \/ (all_space n /\ digits_val 0 (next_token n) = 0%Z).
Proof.
  intros n H. unfold check_numeric in H. destruct n as [|c n]; [discriminate|].
  destruct (strip_ws_decomp (c :: n)) as [pre [post [E [H1 H2]]]].
  remember (strip_whitespace (c :: n)) as ds. destruct ds as [|d ds].
  - right. assert (A : all_space (c :: n)).
    { rewrite E. intros x Hx. apply in_app_or in Hx. destruct Hx as [Hx|Hx]; [auto|].
      simpl in Hx. auto. }
    split; [exact A|]. rewrite <- (app_nil_r (c :: n)), next_token_space by exact A. reflexivity.
  - left. exists (dec_value (d :: ds)), pre, (d :: ds), post. repeat split; auto.
    + discriminate.
    + apply Forall_forall. intros x Hx. apply isdigit_is_dig.
      rewrite forallb_forall in H. apply H. exact Hx.
Qed.

Lemma func_word_ok : forall n v a, numeral n v -> (1 <= v <= INT_MAX)%Z ->
  func_word n a = Ok (nth (Z.to_nat v - 1) (words a) []).
Proof.
  intros n v a Hn Hv. destruct (numeral_check n v Hn) as [H1 H2]. unfold func_word, atoi.
  rewrite H1, H2. destruct (Z.leb_spec v INT_MAX); [|lia].
  destruct (Z.eqb_spec v 0); [lia|]. rewrite word_loop_spec by lia. reflexivity.
Qed.

Lemma func_word_fatal : forall n a,
  (~ (exists v, numeral n v) \/ numeral n 0) -> func_word n a = Fatal.
Proof.
  intros n a [H|H]; unfold func_word.
  - destruct (check_numeric n) eqn:E; [|reflexivity].
    destruct (check_numeral n E) as [Hn|[_ H0]]; [contradiction|].
    unfold atoi. rewrite H0. reflexivity.
  - destruct (numeral_check n 0 H) as [H1 H2]. rewrite H1. unfold atoi. rewrite H2. reflexivity.
Qed.

(** wordlist *)
Lemma wl_start_spec : forall fuel s start, length s < fuel -> (1 <= start)%Z ->
  exists x, wl_start fuel start s = Some x /\
  match x with
  | None => length (words s) < Z.to_nat start
  | Some (p, e) =>
      exists pre w, s = pre ++ p /\ p = w ++ e /\ w <> [] /\ no_space w /\ starts_space e /\
        ends_space pre /\ words pre = firstn (Z.to_nat start - 1) (words s) /\
        words p = skipn (Z.to_nat start - 1) (words s)
  end.
Proof.
  induction fuel as [|k IH]; intros s start H Hs; [lia|]. cbn [wl_start].
  destruct (find_next_token s) as [[w r]|] eqn:E.
  - pose proof (fnt_len _ _ _ E) as L.
    destruct (fnt_some _ _ _ E) as [sp [H1 [H2 [H3 [H4 [H5 H6]]]]]].
    assert (Ew : words s = w :: words r) by (rewrite words_fnt, E; reflexivity).
    destruct (Z.eqb_spec (start - 1) 0) as [Ez|Ez].
    + eexists. split; [reflexivity|]. assert (start = 1%Z) by lia. subst start.
      exists sp, w. rewrite H6. simpl.
      repeat split; auto.
      * unfold ends_space. apply all_space_starts. apply all_space_rev. exact H1.
      * apply words_all_space. exact H1.
      * rewrite words_word; auto.
    + destruct (IH r (start - 1)%Z) as [x [Hx Hp]]; [lia|lia|]. exists x. split; [exact Hx|].
      destruct x as [[p e]|].
      * destruct Hp as [pre [w' [P1 [P2 [P3 [P4 [P5 [P6 [P7 P8]]]]]]]]].
        exists (sp ++ w ++ pre), w'.
        assert (E1 : Z.to_nat start - 1 = S (Z.to_nat (start - 1) - 1)) by lia.
        repeat split; auto.
        -- rewrite H2, P1, <- !app_assoc. reflexivity.
        -- unfold ends_space in *. rewrite !rev_app_distr.
           destruct (rev pre) as [|c l] eqn:Er; [|exact P6].
           assert (pre = []) by (rewrite <- (rev_involutive pre), Er; reflexivity). subst pre.
           simpl in P1. subst r. rewrite P2 in H5. destruct w' as [|c w'']; [contradiction|].
           simpl in H5. rewrite (P4 c) in H5 by (left; reflexivity). discriminate.
        -- rewrite E1, Ew. cbn [firstn]. rewrite <- P7. rewrite words_space by exact H1.
           apply words_word; auto.
           destruct pre as [|c pre]; [exact I|]. rewrite P1 in H5. exact H5.
        -- rewrite E1, Ew. cbn [skipn]. exact P8.
      * rewrite Ew. simpl. lia.
  - exists None. split; [reflexivity|]. rewrite words_fnt, E. simpl. lia.
Qed.

Lemma wl_count_spec : forall fuel e count, length e < fuel -> (1 <= count)%Z -> starts_space e ->
  exists e', wl_count fuel count e = Some e' /\
    exists mid, e = mid ++ e' /\ starts_space e' /\
      words mid = firstn (Z.to_nat count - 1) (words e) /\
      words e' = skipn (Z.to_nat count - 1) (words e) /\
      starts_space mid /\ (forall c m, mid = m ++ [c] -> isspace c = false).
Proof.
  induction fuel as [|k IH]; intros e count H Hc Hs; [lia|]. cbn [wl_count].
  assert (Z0 : exists mid : str, e = mid ++ e /\ starts_space e /\ mid = [] ).
  { exists []. repeat split; auto. }
  destruct (Z.eqb_spec (count - 1) 0) as [Ez|Ez].
  - exists e. split; [reflexivity|]. exists []. assert (count = 1%Z) by lia. subst. simpl.
    repeat split; auto. intros c m Em. destruct m; discriminate.
  - destruct (find_next_token e) as [[w r]|] eqn:E.
    + pose proof (fnt_len _ _ _ E) as L.
      destruct (fnt_some _ _ _ E) as [sp [H1 [H2 [H3 [H4 [H5 H6]]]]]].
      assert (Ew : words e = w :: words r) by (rewrite words_fnt, E; reflexivity).
      destruct (IH r (count - 1)%Z) as [e' [Hx [mid [P1 [P2 [P3 [P4 [P5 P6]]]]]]]]; [lia|lia|exact H5|].
      exists e'. split; [exact Hx|]. exists (sp ++ w ++ mid).
      assert (E1 : Z.to_nat count - 1 = S (Z.to_nat (count - 1) - 1)) by lia.
      repeat split; auto.
      * rewrite H2, P1, <- !app_assoc. reflexivity.
      * rewrite E1, Ew. cbn [firstn]. rewrite <- P3. rewrite words_space by exact H1.
        apply words_word; auto.
      * rewrite E1, Ew. cbn [skipn]. exact P4.
      * destruct sp as [|c sp]; [|apply H1; left; reflexivity].
        exfalso. rewrite H2 in Hs. destruct w as [|c w]; [contradiction|]. simpl in Hs.
        rewrite (H4 c) in Hs by (left; reflexivity). discriminate.
      * intros c m Em. destruct mid as [|d mid] using rev_ind.
        -- rewrite app_nil_r in Em. destruct w as [|d w _] using rev_ind; [contradiction|].
           rewrite app_assoc in Em. apply app_inj_tail in Em. destruct Em as [_ <-].
           apply H4. apply in_or_app. right. left. reflexivity.
        -- rewrite !app_assoc in Em. apply app_inj_tail in Em. destruct Em as [_ <-].
           eapply P6. reflexivity.
    + exists e. split; [reflexivity|]. exists [].
      assert (Ew : words e = []) by (rewrite words_fnt, E; reflexivity).
      rewrite Ew. rewrite firstn_nil, skipn_nil. simpl.
      repeat split; auto. intros c m Em. destruct m; discriminate.
Qed.

Lemma skipn_add : forall (B : Type) i j (l : list B), skipn j (skipn i l) = skipn (j + i) l.
Proof.
  intros B. induction i as [|i IH]; intros j l.
  - rewrite Nat.add_0_r. reflexivity.
  - rewrite Nat.add_succ_r. destruct l as [|x l]; [rewrite !skipn_nil; reflexivity|]. cbn [skipn]. apply IH.
Qed.

Lemma firstn_app_exact : forall (B : Type) (u post : list B),
  firstn (length (u ++ post) - length post) (u ++ post) = u.
Proof.
  intros B u post. rewrite app_length. replace (length u + length post - length post) with (length u) by lia.
  rewrite firstn_app, Nat.sub_diag, firstn_all. simpl. apply app_nil_r.
Qed.

Lemma func_wordlist_ok : forall n s m e a, numeral n s -> numeral m e ->
  (1 <= s <= e)%Z -> (e <= INT_MAX)%Z ->
  exists u, func_wordlist n m a = Ok u /\
    if Z.to_nat s <=? length (words a)
    then word_range a (Z.to_nat s) (Z.to_nat e) u else u = [].
Proof.
  intros n s m e a Hn Hm Hse He. destruct (numeral_check n s Hn) as [N1 N2].
  destruct (numeral_check m e Hm) as [M1 M2]. unfold func_wordlist, atoi.
  rewrite N1, N2, M1, M2. cbn [andb].
  destruct (Z.leb_spec s INT_MAX); [|lia]. destruct (Z.leb_spec e INT_MAX); [|lia].
  destruct (Z.ltb_spec s 1); [lia|]. destruct (Z.ltb_spec 0 (e - s + 1)); [|lia].
  destruct (wl_start_spec (S (length a)) a s) as [x [Hx Px]]; [lia|lia|]. rewrite Hx.
  destruct x as [[p q]|].
  - destruct Px as [pre [w [P1 [P2 [P3 [P4 [P5 [P6 [P7 P8]]]]]]]]].
    assert (L : length q < S (length a)).
    { rewrite P1, P2, !app_length. lia. }
    destruct (wl_count_spec (S (length a)) q (e - s + 1)%Z) as [e' [Hy [mid [Q1 [Q2 [Q3 [Q4 [Q5 Q6]]]]]]]];
      [exact L|lia|exact P5|].
    rewrite Hy. eexists. split; [reflexivity|].
    assert (Ep : p = (w ++ mid) ++ e') by (rewrite P2, Q1, app_assoc; reflexivity).
    rewrite Ep, firstn_app_exact.
    assert (Wq : words p = w :: words q) by (rewrite P2; apply words_word; auto).
    assert (Hlen : Z.to_nat s <= length (words a)).
    { assert (Lk : length (skipn (Z.to_nat s - 1) (words a)) = S (length (words q))).
      { rewrite <- P8, Wq. reflexivity. }
      rewrite skipn_length in Lk. lia. }
    apply Nat.leb_le in Hlen. rewrite Hlen.
    exists pre, e'. repeat split; auto.
    + rewrite <- Ep. exact P1.
    + rewrite words_word; auto. rewrite Q3, <- P8, Wq.
      replace (Z.to_nat e - Z.to_nat s + 1) with (S (Z.to_nat (e - s + 1) - 1)) by lia. reflexivity.
    + rewrite Q4. replace (Z.to_nat e) with ((Z.to_nat (e - s + 1) - 1) + S (Z.to_nat s - 1)) by lia.
      assert (Esk : skipn (S (Z.to_nat s - 1)) (words a) = words q).
      { assert (G : forall (l : list str) i x r, skipn i l = x :: r -> skipn (S i) l = r).
        { clear. induction l as [|y l IH]; intros i x r Hi; destruct i; simpl in *; try discriminate.
          - congruence.
          - eapply IH. exact Hi. }
        eapply G. rewrite <- P8. exact Wq. }
      rewrite <- Esk. apply skipn_add.
    + intros c u' Eu. destruct w as [|d w]; [contradiction|]. inversion Eu; subst. apply P4. left. reflexivity.
    + intros c u' Eu. destruct mid as [|d mid _] using rev_ind.
      * rewrite app_nil_r in Eu. subst w. apply P4. apply in_or_app. right. left. reflexivity.
      * rewrite app_assoc in Eu. apply app_inj_tail in Eu. destruct Eu as [_ <-].
        eapply Q6. reflexivity.
  - exists []. split; [reflexivity|]. destruct (Nat.leb_spec (Z.to_nat s) (length (words a))); [lia|reflexivity].
Qed.

Lemma func_wordlist_empty : forall n s m e a, numeral n s -> numeral m e ->
  (1 <= s <= INT_MAX)%Z -> (0 <= e < s)%Z -> func_wordlist n m a = Ok [].
Proof.
  intros n s m e a Hn Hm Hs He. destruct (numeral_check n s Hn) as [N1 N2].
  destruct (numeral_check m e Hm) as [M1 M2]. unfold func_wordlist, atoi.
  rewrite N1, N2, M1, M2. cbn [andb].
  destruct (Z.leb_spec s INT_MAX); [|lia]. destruct (Z.leb_spec e INT_MAX); [|lia].
  destruct (Z.ltb_spec s 1); [lia|]. destruct (Z.ltb_spec 0 (e - s + 1)); [lia|reflexivity].
Qed.
