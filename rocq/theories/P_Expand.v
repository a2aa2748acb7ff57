From Verif Require Import Base M_Quote M_Text S_Text P_Text M_Var P_Var M_Expand S_Expand.
Open Scope nat_scope.

Lemma subst_ref_total : forall v a b, exists s, subst_ref v a b = Some s.
Proof.
  intros v a b. unfold subst_ref. destruct v as [|x v]; [eauto|].
  destruct (split_percent (find_percent a)) as [p [post|]].
  - destruct (split_percent (find_percent b)) as [r rpct]. unfold patsubst_expand_pat. rewrite each_token_words. simpl. eauto.
  - unfold patsubst_expand_pat. rewrite each_token_words. simpl. eauto.
Qed.

(** ** Lengths of the parts *)
Lemma cut_at_spec : forall c s a b, cut_at c s = Some (a, b) -> s = a ++ c :: b /\ ~ In c a.
Proof.
  intros c. induction s as [|x s IH]; intros a b H; [discriminate|]. cbn [cut_at] in H.
  destruct (x =?c c) eqn:E.
  - inversion H; subst. apply eqc_true in E. subst x. split; [reflexivity|intros []].
  - destruct (cut_at c s) as [[a' b']|] eqn:C; [|discriminate]. inversion H; subst.
    destruct (IH _ _ eq_refl) as [-> I2]. split; [reflexivity|]. intros [Hx|Hx]; [|contradiction].
    apply eqc_false in E. congruence.
Qed.
Lemma cut_at_none : forall c s, cut_at c s = None <-> ~ In c s.
Proof.
  intros c. induction s as [|x s IH]; cbn [cut_at]; [split; [intros _ []|reflexivity]|].
  destruct (x =?c c) eqn:E.
  - apply eqc_true in E. subst x. split; [discriminate|]. intros H. exfalso. apply H. left. reflexivity.
  - apply eqc_false in E. destruct (cut_at c s) as [[a b]|] eqn:C.
    + split; [discriminate|]. intros H. exfalso. apply H. right. apply cut_at_spec in C. destruct C as [-> _].
      apply in_or_app. right. left. reflexivity.
    + split; [|reflexivity]. intros _ [Hx|Hx]; [congruence|]. apply (proj1 IH); [reflexivity|exact Hx].
Qed.
Lemma cut_at_app : forall c a s, ~ In c a -> cut_at c (a ++ c :: s) = Some (a, s).
Proof.
  intros c. induction a as [|x a IH]; intros s H; cbn [cut_at app].
  - rewrite eqc_refl. reflexivity.
  - destruct (x =?c c) eqn:E; [apply eqc_true in E; subst; exfalso; apply H; left; reflexivity|].
    rewrite IH; [reflexivity|]. intros Hx. apply H. right. exact Hx.
Qed.

Lemma match_close_app : forall op cl s k a b, match_close op cl k s = Some (a, b) -> s = a ++ cl :: b.
Proof.
  intros op cl. induction s as [|x s IH]; intros k a b H; [discriminate|]. cbn [match_close] in H.
  destruct (x =?c op).
  - destruct (match_close op cl (S k) s) as [[a' b']|] eqn:C; [|discriminate]. inversion H; subst. rewrite (IH _ _ _ C). reflexivity.
  - destruct (x =?c cl) eqn:E.
    + apply eqc_true in E. subst x. destruct k as [|k]; [inversion H; subst; reflexivity|].
      destruct (match_close op cl k s) as [[a' b']|] eqn:C; [|discriminate]. inversion H; subst. rewrite (IH _ _ _ C). reflexivity.
    + destruct (match_close op cl k s) as [[a' b']|] eqn:C; [|discriminate]. inversion H; subst. rewrite (IH _ _ _ C). reflexivity.
Qed.

Lemma next_argument_app : forall op cl s k a b, next_argument op cl k s = Some (a, b) -> s = a ++ c_comma :: b.
Proof.
  intros op cl. induction s as [|x s IH]; intros k a b H; [discriminate|]. cbn [next_argument] in H.
  destruct (x =?c op).
  - destruct (next_argument op cl (S k) s) as [[a' b']|] eqn:C; [|discriminate]. inversion H; subst. rewrite (IH _ _ _ C). reflexivity.
  - destruct (x =?c cl) eqn:E.
    + destruct k as [|k]; [discriminate|].
      destruct (next_argument op cl k s) as [[a' b']|] eqn:C; [|discriminate]. inversion H; subst. rewrite (IH _ _ _ C). reflexivity.
    + destruct (x =?c c_comma) eqn:F; cbn [andb] in H.
      * destruct (k =? 0); [apply eqc_true in F; inversion H; subst; reflexivity|].
        destruct (next_argument op cl k s) as [[a' b']|] eqn:C; [|discriminate]. inversion H; subst. rewrite (IH _ _ _ C). reflexivity.
      * destruct (next_argument op cl k s) as [[a' b']|] eqn:C; [|discriminate]. inversion H; subst. rewrite (IH _ _ _ C). reflexivity.
Qed.

Lemma split_args_len : forall op cl max fuel n s a, In a (split_args op cl max fuel n s) -> length a <= length s.
Proof.
  intros op cl max. induction fuel as [|f IH]; intros n s a H; cbn [split_args] in H.
  - destruct H as [<-|[]]. lia.
  - destruct (S n =? max); [destruct H as [<-|[]]; lia|].
    destruct (next_argument op cl 0 s) as [[x r]|] eqn:E; [|destruct H as [<-|[]]; lia].
    apply next_argument_app in E. subst s. rewrite app_length. simpl.
    destruct H as [<-|H]; [lia|]. apply IH in H. lia.
Qed.
Lemma next_token_len : forall s, length (next_token s) <= length s.
Proof. intros s. destruct (next_token_spec s) as [sp [_ [H _]]]. rewrite H at 2. rewrite app_length. lia. Qed.
Lemma strip_len : forall s, length (strip_whitespace s) <= length s.
Proof.
  intros s. unfold strip_whitespace. rewrite rev_length.
  pose proof (next_token_len (rev (next_token s))). rewrite rev_length in H. pose proof (next_token_len s). lia.
Qed.

(** ** Doubled dollars (C12) *)
Section Double.
  Variable ftab : str -> option fent.
  Variable guard : bool.

  Lemma double_app : forall a b, double_dollars (a ++ b) = double_dollars a ++ double_dollars b.
  Proof. intros. apply flat_map_app. Qed.
  Lemma double_plain : forall s, ~ In c_dollar s -> double_dollars s = s.
  Proof.
    induction s as [|x s IH]; intros H; [reflexivity|]. unfold double_dollars. cbn [flat_map].
    destruct (x =?c c_dollar) eqn:E; [apply eqc_true in E; subst; exfalso; apply H; left; reflexivity|].
    cbn [app]. f_equal. apply IH. intros Hx. apply H. right. exact Hx.
  Qed.

  (** Fuel of the loop beyond the length of the text is not used. *)
  Lemma scan_fuel : forall rec n m c st t out, length t < n -> length t < m ->
    scan ftab guard rec n c st t out = scan ftab guard rec m c st t out.
  Proof.
    intros rec. induction n as [|n IH]; intros m c st t out Hn Hm; [lia|]. destruct m as [|m]; [lia|].
    cbn [scan]. destruct (cut_at c_dollar t) as [[lit r]|] eqn:C; [|reflexivity].
    apply cut_at_spec in C. destruct C as [-> _]. rewrite app_length in *. cbn [length] in *.
    destruct r as [|x r]; [reflexivity|]. cbn [length] in *.
    destruct (x =?c c_dollar); [apply IH; lia|].
    destruct ((x =?c c_lparen) || (x =?c c_lbrace)).
    - destruct (lookup_function ftab r) as [[len e]|].
      + destruct (match_close x _ 0 (next_token (skipn len r))) as [[text rest]|] eqn:M; [|reflexivity].
        apply match_close_app in M. pose proof (next_token_len (skipn len r)) as L. rewrite M, app_length, skipn_length in L.
        cbn [length] in L. destruct (run_function _ _ _ _ _ _ _ _) as [[st' s]| |]; cbn [xbind]; [|reflexivity|reflexivity].
        apply IH; lia.
      + destruct (cut_at _ r) as [[raw after]|] eqn:R; [|reflexivity].
        destruct (cut_at c_dollar raw) as [p|].
        * destruct (match_close x _ 0 r) as [[inner rest]|] eqn:M; [|reflexivity].
          apply match_close_app in M. rewrite M, app_length in Hn, Hm. cbn [length] in *.
          destruct (rec c st inner) as [[st' t']| |]; cbn [xbind]; [|reflexivity|reflexivity].
          destruct (full_reference _ _ _ _ _) as [[st'' s]| |]; cbn [xbind]; [|reflexivity|reflexivity].
          apply IH; lia.
        * apply cut_at_spec in R. destruct R as [-> _]. rewrite app_length in Hn, Hm. cbn [length] in *.
          destruct (full_reference _ _ _ _ _) as [[st'' s]| |]; cbn [xbind]; [|reflexivity|reflexivity].
          apply IH; lia.
    - destruct (reference_variable _ _ _ _ _) as [[st' s]| |]; cbn [xbind]; [|reflexivity|reflexivity].
      apply IH; lia.
  Qed.

  (** Text already written stays in front. *)
  Definition prefixed (o : str) (r : xres (xst * str)) : xres (xst * str) :=
    match r with XOk (st, s) => XOk (st, o ++ s) | XFail e => XFail e | XFuel => XFuel end.
  Lemma scan_out : forall rec n c st t o o',
    scan ftab guard rec n c st t (o ++ o') = prefixed o (scan ftab guard rec n c st t o').
  Proof.
    intros rec. induction n as [|n IH]; intros c st t o o'; [reflexivity|]. cbn [scan].
    destruct (cut_at c_dollar t) as [[lit r]|] eqn:C; [|cbn [prefixed]; rewrite app_assoc; reflexivity].
    destruct r as [|x r]; [cbn [prefixed]; rewrite !app_assoc; reflexivity|].
    destruct (x =?c c_dollar); [rewrite <- !app_assoc; apply IH|].
    destruct ((x =?c c_lparen) || (x =?c c_lbrace)).
    - destruct (lookup_function ftab r) as [[len e]|].
      + destruct (match_close x _ 0 (next_token (skipn len r))) as [[text rest]|] eqn:M; [|reflexivity].
        destruct (run_function _ _ _ _ _ _ _ _) as [[st' s]| |]; cbn [xbind]; [|reflexivity|reflexivity].
        rewrite <- !app_assoc. apply IH.
      + destruct (cut_at _ r) as [[raw after]|] eqn:R; [|reflexivity].
        destruct (cut_at c_dollar raw) as [p|].
        * destruct (match_close x _ 0 r) as [[inner rest]|] eqn:M.
          -- destruct (rec c st inner) as [[st' t']| |]; cbn [xbind]; [|reflexivity|reflexivity].
             destruct (full_reference _ _ _ _ _) as [[st'' s]| |]; cbn [xbind]; [|reflexivity|reflexivity].
             rewrite <- !app_assoc. apply IH.
          -- destruct (full_reference _ _ _ _ _) as [[st'' s]| |]; cbn [xbind prefixed]; [|reflexivity|reflexivity].
             rewrite <- !app_assoc. reflexivity.
        * destruct (full_reference _ _ _ _ _) as [[st'' s]| |]; cbn [xbind]; [|reflexivity|reflexivity].
          rewrite <- !app_assoc. apply IH.
    - destruct (reference_variable _ _ _ _ _) as [[st' s]| |]; cbn [xbind]; [|reflexivity|reflexivity].
      rewrite <- !app_assoc. apply IH.
  Qed.

  Lemma cut_at_prefix : forall c a s, ~ In c a ->
    cut_at c (a ++ s) = match cut_at c s with Some (x, y) => Some (a ++ x, y) | None => None end.
  Proof.
    intros c. induction a as [|x a IH]; intros s H; cbn [app cut_at]; [destruct (cut_at c s) as [[? ?]|]; reflexivity|].
    destruct (x =?c c) eqn:E; [apply eqc_true in E; subst; exfalso; apply H; left; reflexivity|].
    rewrite IH by (intros Hx; apply H; right; exact Hx). destruct (cut_at c s) as [[? ?]|]; reflexivity.
  Qed.

  (** A literal character in front. *)
  Lemma scan_lit : forall rec n c st x t out, x <> c_dollar ->
    scan ftab guard rec n c st (x :: t) out = scan ftab guard rec n c st t (out ++ [x]).
  Proof.
    intros rec n c st x t out Hx. destruct n as [|n]; [reflexivity|]. cbn [scan].
    change (x :: t) with ([x] ++ t). rewrite cut_at_prefix by (intros [H|[]]; congruence).
    destruct (cut_at c_dollar t) as [[lit r]|]; rewrite !app_assoc; reflexivity.
  Qed.
  Lemma scan_dd : forall rec n c st t out,
    scan ftab guard rec (S n) c st (c_dollar :: c_dollar :: t) out = scan ftab guard rec n c st t (out ++ [c_dollar]).
  Proof. intros. cbn [scan cut_at]. rewrite eqc_refl. rewrite eqc_refl. rewrite app_nil_r. reflexivity. Qed.

  Lemma expand_double_prefix : forall fuel c st a t,
    expand ftab guard (S fuel) c st (double_dollars a ++ t) = prefixed a (expand ftab guard (S fuel) c st t).
  Proof.
    intros fuel c st a t. cbn [expand].
    assert (G : forall n, length (double_dollars a ++ t) < n -> forall out,
      scan ftab guard (expand ftab guard fuel) n c st (double_dollars a ++ t) out =
      prefixed (out ++ a) (scan ftab guard (expand ftab guard fuel) (S (length t)) c st t [])).
    { induction a as [|x a IH]; intros n Hn out.
      - cbn [double_dollars flat_map app]. rewrite app_nil_r. rewrite <- scan_out, app_nil_r. apply scan_fuel; [exact Hn|lia].
      - unfold double_dollars in *. cbn [flat_map] in *. destruct (x =?c c_dollar) eqn:E.
        + apply eqc_true in E. subst x. cbn [app length] in *. destruct n as [|n]; [lia|]. rewrite scan_dd.
          rewrite IH by lia. rewrite <- app_assoc. reflexivity.
        + apply eqc_false in E. cbn [app length] in *. rewrite scan_lit by exact E.
          rewrite IH by lia. rewrite <- app_assoc. reflexivity. }
    rewrite G by lia. reflexivity.
  Qed.
End Double.

(** ** Two expanders side by side *)
Definition no_call (ftab : str -> option fent) : Prop := forall n e, ftab n = Some e -> f_kind e <> KCall.
Definition no_foreach (ftab : str -> option fent) : Prop := forall n e, ftab n = Some e -> f_kind e <> KForeach.
Definition all_simple (s : vset) : Prop := forall n v, In (n, v) s -> v_recursive v = false /\ v_private v = false /\ v_append v = false.

Lemma lookup_function_in : forall ftab s len e, lookup_function ftab s = Some (len, e) -> exists n, ftab n = Some e.
Proof.
  intros ftab s len e H. unfold lookup_function in H. destruct (span is_userfunc s) as [name r]. destruct name as [|x l]; [discriminate|].
  destruct (match r with [] => true | c :: _ => isspace c end); [|discriminate].
  match type of H with match ?t with _ => _ end = _ => destruct t eqn:F; [|discriminate] end.
  inversion H; subst. eauto.
Qed.

Section Rel.
  Variable ftab : str -> option fent.
  Variables (F : Prop) (E : Prop -> Prop) (SR : xst -> xst -> Prop).
  Hypothesis EM : forall p q : Prop, (p -> q) -> E p -> E q.
  Definition RR {A} (r1 r2 : xres (xst * A)) : Prop :=
    (F /\ r2 = XFuel) \/
    match r1 with
    | XOk (s1, a) => exists s2, r2 = XOk (s2, a) /\ SR s1 s2
    | XFail (XSelf i n) => E (r2 = XFail (XSelf i n))
    | XFail e => r2 = XFail e
    | XFuel => True
    end.

  Lemma RR_ok : forall A s1 s2 (a : A), SR s1 s2 -> RR (XOk (s1, a)) (XOk (s2, a)).
  Proof. intros. right. exists s2. auto. Qed.
  Lemma RR_fail : forall A e, match e with XSelf _ _ => False | _ => True end -> @RR A (XFail e) (XFail e).
  Proof. intros A e H. right. destruct e; auto. destruct H. Qed.
  Lemma RR_fuel : forall A r, @RR A XFuel r.
  Proof. intros. right. exact I. Qed.

  Lemma RR_bind : forall A B (r1 r2 : xres (xst * A)) (f1 f2 : xst * A -> xres (xst * B)),
    RR r1 r2 -> (forall s1 s2 a, SR s1 s2 -> RR (f1 (s1, a)) (f2 (s2, a))) -> RR (xbind r1 f1) (xbind r2 f2).
  Proof.
    intros A B r1 r2 f1 f2 [[HF ->]|H] Hf; [left; auto|]. destruct r1 as [[s1 a]|e|]; cbn [xbind].
    - destruct H as [s2 [-> H]]. apply Hf. exact H.
    - destruct e; try (subst r2; right; reflexivity). right. revert H. apply EM. intros ->. reflexivity.
    - right. exact I.
  Qed.

  Variables rec1 rec2 : chain -> xst -> str -> xres (xst * str).
  Variables g1 g2 : bool.
  Variable CP : chain -> Prop.
  Hypothesis Hrec : forall c s1 s2 t, CP c -> SR s1 s2 -> RR (rec1 c s1 t) (rec2 c s2 t).

  Lemma append_RR : forall c n w local s1 s2, CP c -> SR s1 s2 ->
    RR (variable_append rec1 c s1 n local w) (variable_append rec2 c s2 n local w).
  Proof.
    intros c n w. induction w as [|nd w IH]; intros local s1 s2 HC HS; cbn [variable_append]; [apply RR_ok; exact HS|].
    destruct (set_find n (n_set nd)) as [v|]; [|apply IH; assumption].
    destruct (negb local && v_private v); [apply IH; assumption|].
    apply RR_bind.
    - destruct (v_append v); [apply IH; assumption|apply RR_ok; exact HS].
    - intros a1 a2 buf Ha. destruct (v_recursive v); [|apply RR_ok; exact Ha].
      apply RR_bind; [apply Hrec; assumption|]. intros b1 b2 s Hb. apply RR_ok. exact Hb.
  Qed.

  Hypothesis Hvar : forall c s1 s2 id n v, CP c -> SR s1 s2 -> lookup_variable n c = Some (id, v) -> v_recursive v = true ->
    RR (recursively_expand g1 rec1 c s1 id n v) (recursively_expand g2 rec2 c s2 id n v).
  Hypothesis Hpush : (no_foreach ftab /\ no_call ftab) \/ (forall c s, CP c -> all_simple s -> CP (pushed s c)).
  Hypothesis Hcall : no_call ftab \/
    (forall a b, SR a b -> x_max a = x_max b /\
       (forall i n k m, SR (set_max (set_count a i n k) m) (set_max (set_count b i n k) m)) /\
       (forall i n k m, SR (set_count (set_max a m) i n k) (set_count (set_max b m) i n k))).

  Lemma reference_RR : forall c s1 s2 n, CP c -> SR s1 s2 ->
    RR (reference_variable g1 rec1 c s1 n) (reference_variable g2 rec2 c s2 n).
  Proof.
    intros c s1 s2 n HC HS. unfold reference_variable. destruct (lookup_variable n c) as [[id v]|] eqn:L; [|apply RR_ok; exact HS].
    assert (G : RR (if v_recursive v then recursively_expand g1 rec1 c s1 id n v else XOk (s1, v_value v))
                   (if v_recursive v then recursively_expand g2 rec2 c s2 id n v else XOk (s2, v_value v))).
    { destruct (v_recursive v) eqn:R; [apply Hvar; assumption|apply RR_ok; exact HS]. }
    destruct (v_value v); [destruct (v_append v); [exact G|apply RR_ok; exact HS]|exact G].
  Qed.

  Lemma full_RR : forall c s1 s2 t, CP c -> SR s1 s2 ->
    RR (full_reference g1 rec1 c s1 t) (full_reference g2 rec2 c s2 t).
  Proof.
    intros c s1 s2 t HC HS. unfold full_reference.
    destruct (cut_at c_colon t) as [[n sub]|]; [|apply reference_RR; assumption].
    destruct (cut_at c_eq sub) as [[a b]|]; [|apply reference_RR; assumption].
    destruct (lookup_variable n c) as [[id v]|] eqn:L; [|apply RR_ok; exact HS].
    destruct (v_value v) as [|x l] eqn:V; [apply RR_ok; exact HS|]. rewrite <- V. apply RR_bind.
    - destruct (v_recursive v) eqn:R; [apply Hvar; assumption|apply RR_ok; exact HS].
    - intros a1 a2 value Ha. destruct (subst_ref_total value a b) as [s ->]. apply RR_ok. exact Ha.
  Qed.

  Lemma args_RR : forall c l s1 s2, CP c -> SR s1 s2 -> RR (expand_args rec1 c s1 l) (expand_args rec2 c s2 l).
  Proof.
    intros c. induction l as [|a l IH]; intros s1 s2 HC HS; cbn [expand_args]; [apply RR_ok; exact HS|].
    apply RR_bind; [apply Hrec; assumption|]. intros a1 a2 x Ha. apply RR_bind; [apply IH; assumption|].
    intros b1 b2 xs Hb. apply RR_ok. exact Hb.
  Qed.

  Lemma loop_RR : forall c vn body ws s1 s2, CP c -> SR s1 s2 -> (forall s, all_simple s -> CP (pushed s c)) ->
    RR (foreach_loop rec1 c vn body s1 ws) (foreach_loop rec2 c vn body s2 ws).
  Proof.
    intros c vn body. induction ws as [|w ws IH]; intros s1 s2 HC HS HP; cbn [foreach_loop]; [apply RR_ok; exact HS|].
    apply RR_bind.
    - apply Hrec; [|exact HS]. apply HP. intros n v [H|[]]. inversion H; subst. split; [reflexivity|split; reflexivity].
    - intros a1 a2 s Ha. apply RR_bind; [apply IH; assumption|]. intros b1 b2 s' Hb. apply RR_ok. exact Hb.
  Qed.

  Lemma or_RR : forall c l s1 s2, CP c -> SR s1 s2 -> RR (func_or rec1 c s1 l) (func_or rec2 c s2 l).
  Proof.
    intros c. induction l as [|a l IH]; intros s1 s2 HC HS; cbn [func_or]; [apply RR_ok; exact HS|].
    destruct (strip_whitespace a); [apply IH; assumption|].
    apply RR_bind; [apply Hrec; assumption|]. intros a1 a2 [|y q] Ha; [apply IH; assumption|apply RR_ok; exact Ha].
  Qed.
  Lemma and_RR : forall c l s1 s2, CP c -> SR s1 s2 -> RR (func_and rec1 c s1 l) (func_and rec2 c s2 l).
  Proof.
    intros c. induction l as [|a l IH]; intros s1 s2 HC HS; cbn [func_and]; [apply RR_fail; exact I|].
    destruct (strip_whitespace a); [apply RR_ok; exact HS|].
    apply RR_bind; [apply Hrec; assumption|]. intros a1 a2 [|y q] Ha; [apply RR_ok; exact Ha|].
    destruct l; [apply RR_ok; exact Ha|apply IH; assumption].
  Qed.
  Lemma if_RR : forall c l s1 s2, CP c -> SR s1 s2 -> RR (func_if rec1 c s1 l) (func_if rec2 c s2 l).
  Proof.
    intros c [|a l] s1 s2 HC HS; cbn [func_if]; [apply RR_fail; exact I|]. apply RR_bind.
    - destruct (strip_whitespace a); [apply RR_ok; exact HS|]. apply RR_bind; [apply Hrec; assumption|].
      intros b1 b2 q Hb. apply RR_ok. exact Hb.
    - intros b1 b2 b Hb. destruct (nth_error l (if b then 0 else 1)); [apply Hrec; assumption|apply RR_ok; exact Hb].
  Qed.
  Lemma foreach_RR : forall c l s1 s2, CP c -> SR s1 s2 -> (forall s, all_simple s -> CP (pushed s c)) ->
    RR (func_foreach rec1 c s1 l) (func_foreach rec2 c s2 l).
  Proof.
    intros c l s1 s2 HC HS HP. unfold func_foreach. destruct l as [|a [|b [|body l]]]; try (apply RR_fail; exact I).
    apply RR_bind; [apply Hrec; assumption|]. intros a1 a2 vn Ha. apply RR_bind; [apply Hrec; assumption|].
    intros b1 b2 lst Hb. rewrite each_token_words. apply loop_RR; assumption.
  Qed.

  Lemma builtin_RR : forall depth c s1 s2 e l, CP c -> SR s1 s2 -> (exists n, ftab n = Some e) ->
    RR (builtin ftab rec1 depth c s1 e l) (builtin ftab rec2 depth c s2 e l).
  Proof.
    induction depth as [|depth IH]; intros c s1 s2 e l HC HS [fn He]; cbn [builtin];
      (destruct (length l <? f_min e); [apply RR_fail; exact I|]);
      (destruct l as [|a args]; [apply RR_ok; exact HS|]);
      (destruct (f_kind e) as [f| | | | | | | | |] eqn:K;
       [destruct (f _); [apply RR_ok; exact HS|apply RR_fail; exact I]
       | apply foreach_RR; [exact HC|exact HS|];
         destruct Hpush as [[N _]|P]; [exfalso; exact (N _ _ He K)|intros s Hs; apply P; assumption]
       | apply if_RR; assumption | apply or_RR; assumption | apply and_RR; assumption
       |
       | apply RR_ok; exact HS
       | destruct (lookup_variable a c) as [[id v]|]; [|apply RR_ok; exact HS];
         destruct (origin_name (v_origin v)); [apply RR_ok; exact HS|apply RR_fail; exact I]
       | apply RR_ok; exact HS
       | apply RR_fail; exact I]).
    all: destruct Hcall as [N|HSR]; [exfalso; exact (N _ _ He K)|].
    all: destruct Hpush as [[_ N]|P]; [exfalso; exact (N _ _ He K)|].
    all: destruct (fst (end_of_token (next_token a))) as [|x l] eqn:FN; [apply RR_ok; exact HS|]; rewrite <- FN.
    all: destruct (lookup_function ftab (fst (end_of_token (next_token a)))) as [[len e']|] eqn:LF;
         [|destruct (lookup_variable (fst (end_of_token (next_token a))) c) as [[id v]|] eqn:LV; [|apply RR_ok; exact HS];
           destruct (v_value v) as [|y m] eqn:V; [apply RR_ok; exact HS|];
           destruct (HSR _ _ HS) as [HSR1 [HSR2 _]]; rewrite HSR1;
           apply RR_bind;
           [apply Hrec; [apply P; [exact HC|]; intros n w Hi; apply in_map_iff in Hi; destruct Hi as [k [Hk _]]; inversion Hk; subst; split; [reflexivity|split; reflexivity]
                        |apply HSR2]
           |intros b1 b2 s Hb; apply RR_ok; apply (proj2 (proj2 (HSR _ _ Hb)))]].
    - apply RR_fuel.
    - apply IH; [exact HC|exact HS|]. eapply lookup_function_in. exact LF.
  Qed.

  Lemma run_RR : forall c s1 s2 op cl e text, CP c -> SR s1 s2 -> (exists n, ftab n = Some e) ->
    RR (run_function ftab rec1 c s1 op cl e text) (run_function ftab rec2 c s2 op cl e text).
  Proof.
    intros c s1 s2 op cl e text HC HS He. unfold run_function. destruct (f_expand e); [|apply builtin_RR; assumption].
    apply RR_bind; [apply args_RR; assumption|]. intros a1 a2 xs Ha. apply builtin_RR; assumption.
  Qed.

  Lemma scan_RR : forall n c s1 s2 t out, CP c -> SR s1 s2 ->
    RR (scan ftab g1 rec1 n c s1 t out) (scan ftab g2 rec2 n c s2 t out).
  Proof.
    induction n as [|n IH]; intros c s1 s2 t out HC HS; cbn [scan]; [apply RR_fuel|].
    destruct (cut_at c_dollar t) as [[lit r]|]; [|apply RR_ok; exact HS].
    destruct r as [|x r]; [apply RR_ok; exact HS|].
    destruct (x =?c c_dollar); [apply IH; assumption|].
    destruct ((x =?c c_lparen) || (x =?c c_lbrace)).
    - destruct (lookup_function ftab r) as [[len e]|] eqn:LF.
      + destruct (match_close x _ 0 _) as [[text rest]|]; [|apply RR_fail; exact I].
        apply RR_bind; [apply run_RR; [assumption|assumption|eapply lookup_function_in; exact LF]|].
        intros a1 a2 s Ha. apply IH; assumption.
      + destruct (cut_at _ r) as [[raw after]|]; [|apply RR_fail; exact I].
        destruct (cut_at c_dollar raw) as [p|].
        * destruct (match_close x _ 0 r) as [[inner rest]|].
          -- apply RR_bind; [apply Hrec; assumption|]. intros a1 a2 t' Ha.
             apply RR_bind; [apply full_RR; assumption|]. intros b1 b2 s Hb. apply IH; assumption.
          -- apply RR_bind; [apply full_RR; assumption|]. intros b1 b2 s Hb. apply RR_ok. exact Hb.
        * apply RR_bind; [apply full_RR; assumption|]. intros b1 b2 s Hb. apply IH; assumption.
    - apply RR_bind; [apply reference_RR; assumption|]. intros b1 b2 s Hb. apply IH; assumption.
  Qed.
End Rel.

(** ** The check changes nothing but the reports *)
Section Sound.
  Variable ftab : str -> option fent.

  Lemma expand_sound_RR : forall fuel c s1 s2 t, x_max s1 = x_max s2 ->
    RR False (fun _ => True) (fun a b => x_max a = x_max b)
       (expand ftab true fuel c s1 t) (expand ftab false fuel c s2 t).
  Proof.
    induction fuel as [|fuel IH]; intros c s1 s2 t H; cbn [expand]; [apply RR_fuel|].
    apply scan_RR with (CP := fun _ => True); auto.
    - intros c' a b id n v _ Hab _ _. unfold recursively_expand.
      assert (B : forall a', x_max a' = x_max b -> RR False (fun _ => True) (fun a b => x_max a = x_max b)
        (xbind (if v_append v then variable_append (expand ftab true fuel) c' (set_busy a' id n true) n true c'
                else expand ftab true fuel c' (set_busy a' id n true) (v_value v))
               (fun '(st, s) => XOk (set_busy st id n false, s)))
        (if v_append v then variable_append (expand ftab false fuel) c' b n true c' else expand ftab false fuel c' b (v_value v))).
      { intros a' Ha.
        assert (X : forall A (r : xres (xst * A)), r = xbind r (fun '(st, s) => XOk (st, s))).
        { intros A [[? ?]| |]; reflexivity. }
        rewrite (X _ (if v_append v then _ else expand ftab false fuel c' b (v_value v))).
        apply RR_bind; [auto| |].
        - destruct (v_append v); [|apply IH; exact Ha].
          apply append_RR with (CP := fun _ => True); [auto|intros; apply IH; assumption|exact I|exact Ha].
        - intros x1 x2 s Hx. apply RR_ok. exact Hx. }
      destruct (busy a id n); [|apply B; exact Hab].
      destruct (count a id n) as [|k]; [right; exact I|]. apply B. exact Hab.
  Qed.

  (** A result obtained with the check is the result without it. *)
  Lemma expand_sound : forall fuel c s1 s2 t st s, x_max s1 = x_max s2 ->
    expand ftab true fuel c s1 t = XOk (st, s) -> exists st', expand ftab false fuel c s2 t = XOk (st', s).
  Proof.
    intros fuel c s1 s2 t st s H R. pose proof (expand_sound_RR fuel c s1 s2 t H) as G. rewrite R in G.
    destruct G as [[[] _]|[st' [G _]]]. eauto.
  Qed.
  Lemma expand_sound_fail : forall fuel c s1 s2 t e, x_max s1 = x_max s2 ->
    match e with XSelf _ _ => False | _ => True end ->
    expand ftab true fuel c s1 t = XFail e -> expand ftab false fuel c s2 t = XFail e.
  Proof.
    intros fuel c s1 s2 t e H He R. pose proof (expand_sound_RR fuel c s1 s2 t H) as G. rewrite R in G.
    destruct G as [[[] _]|G]. destruct e; auto; destruct He.
  Qed.
End Sound.

(** ** Flags are restored *)
Lemma filter_none : forall A (f : A -> bool) l, existsb (fun x => negb (f x)) l = false -> filter f l = l.
Proof.
  intros A f. induction l as [|x l IH]; intros H; [reflexivity|]. simpl in *. apply orb_false_iff in H. destruct H as [H1 H2].
  apply negb_false_iff in H1. rewrite H1, IH by exact H2. reflexivity.
Qed.
Lemma key_eqb_refl : forall i n, key_eqb i n (i, n) = true.
Proof. intros. unfold key_eqb. simpl. rewrite Nat.eqb_refl, str_eqb_refl. reflexivity. Qed.
Lemma key_eqb_eq : forall i n k, key_eqb i n k = true <-> k = (i, n).
Proof.
  intros i n [j m]. unfold key_eqb. simpl. rewrite andb_true_iff, Nat.eqb_eq, str_eqb_eq. split; [intros [-> ->]; reflexivity|].
  intros H. inversion H. auto.
Qed.

Lemma busy_restore : forall st i n, busy st i n = false -> set_busy (set_busy st i n true) i n false = st.
Proof.
  intros st i n H. unfold set_busy, busy in *. cbn [x_busy x_count x_max]. cbn [filter]. rewrite key_eqb_refl. cbn [negb].
  assert (E : filter (fun k => negb (key_eqb i n k)) (x_busy st) = x_busy st).
  { apply filter_none. rewrite <- H. clear. induction (x_busy st) as [|x l IH]; [reflexivity|]. simpl. rewrite negb_involutive, IH. reflexivity. }
  rewrite E, E. destruct st; reflexivity.
Qed.
Lemma busy_set : forall st i n j m, busy (set_busy st i n true) j m = busy st j m || key_eqb j m (i, n).
Proof.
  intros st i n j m. unfold busy, set_busy. cbn [x_busy existsb].
  destruct (key_eqb j m (i, n)) eqn:E; [rewrite orb_true_r; reflexivity|]. rewrite orb_false_r. cbn [orb].
  induction (x_busy st) as [|x l IH]; [reflexivity|]. cbn [filter existsb].
  destruct (key_eqb i n x) eqn:K; cbn [negb].
  - apply key_eqb_eq in K. subst x. rewrite IH, E. reflexivity.
  - cbn [existsb]. rewrite IH. reflexivity.
Qed.

Section Restore.
  Variable ftab : str -> option fent.
  Hypothesis NC : no_call ftab.

  Definition keeps (st st' a b : xst) : Prop := a = st /\ b = st'.

  Lemma expand_keeps_RR : forall fuel c st st' t, x_count st = [] ->
    RR False (fun _ => True) (keeps st st') (expand ftab true fuel c st t) (expand ftab false fuel c st' t).
  Proof.
    induction fuel as [|fuel IH]; intros c st st' t H; cbn [expand]; [apply RR_fuel|].
    apply scan_RR with (CP := fun _ => True); auto.
    - intros c' a b t' _ [-> ->]. apply IH. exact H.
    - intros c' a b id n v _ [-> ->] _ _. unfold recursively_expand.
      destruct (busy st id n) eqn:B.
      + unfold count. rewrite H. cbn [find]. right. exact I.
      + assert (X : forall A (r : xres (xst * A)), r = xbind r (fun '(st, s) => XOk (st, s))).
        { intros A [[? ?]| |]; reflexivity. }
        rewrite (X _ (if v_append v then _ else expand ftab false fuel c' st' (v_value v))).
        assert (G : RR False (fun _ => True) (keeps (set_busy st id n true) st')
          (if v_append v then variable_append (expand ftab true fuel) c' (set_busy st id n true) n true c'
           else expand ftab true fuel c' (set_busy st id n true) (v_value v))
          (if v_append v then variable_append (expand ftab false fuel) c' st' n true c' else expand ftab false fuel c' st' (v_value v))).
        { destruct (v_append v); [|apply IH; exact H].
          apply append_RR with (CP := fun _ => True); [auto| |exact I|split; reflexivity].
          intros c0 a b t0 _ [-> ->]. apply IH. exact H. }
        destruct G as [[[] _]|G].
        destruct (if v_append v then _ else expand ftab true fuel c' (set_busy st id n true) (v_value v)) as [[a s]|e|].
        * destruct G as [s2 [-> [-> ->]]]. cbn [xbind]. right. exists st'. split; [reflexivity|].
          split; [apply busy_restore; exact B|reflexivity].
        * cbn [xbind]. right. destruct e; try (rewrite G; reflexivity). exact G.
        * right. exact I.
    - split; reflexivity.
  Qed.

  Lemma expand_keeps : forall fuel c st t st1 s, x_count st = [] ->
    expand ftab true fuel c st t = XOk (st1, s) -> st1 = st.
  Proof.
    intros fuel c st t st1 s H R. pose proof (expand_keeps_RR fuel c st st t H) as G. rewrite R in G.
    destruct G as [[[] _]|[s2 [_ [G _]]]]. exact G.
  Qed.
End Restore.

(** ** A report is made only for expansions without end *)
Section Exact.
  Variable ftab : str -> option fent.
  Hypothesis NC : no_call ftab.
  Hypothesis NF : no_foreach ftab.
  Variable c : chain.

  (** The unchecked expansion of a variable's body. *)
  Definition nbody (f : nat) (n : str) (v : var) : xres (xst * str) :=
    if v_append v then variable_append (expand ftab false f) c st0 n true c
    else expand ftab false f c st0 (v_value v).

  Definition needs (f : nat) (st : xst) : Prop :=
    exists f' id n v, f' < f /\ busy st id n = true /\ lookup_variable n c = Some (id, v) /\ nbody f' n v <> XFuel.

  Lemma RR_weaken : forall A F (E E' : Prop) SR (r1 r2 : xres (xst * A)), (E -> E') ->
    RR F (fun _ => E) SR r1 r2 -> RR F (fun _ => E') SR r1 r2.
  Proof.
    intros A F E E' SR r1 r2 H [G|G]; [left; exact G|right]. destruct r1 as [[? ?]|e|]; auto. destruct e; auto.
  Qed.

  Lemma exact_RR : forall f G st t, x_count st = [] ->
    RR True (fun _ => needs f st) (keeps st st0) (expand ftab true G c st t) (expand ftab false f c st0 t).
  Proof.
    induction f as [f IH] using lt_wf_ind. intros G st t H.
    destruct f as [|f]; [left; split; [exact I|reflexivity]|]. destruct G as [|G]; [apply RR_fuel|].
    cbn [expand]. apply scan_RR with (CP := fun c' => c' = c); [auto| | | | | |].
    - intros c' a b t' -> [-> ->]. apply RR_weaken with (E := needs f st); [|apply IH; [lia|exact H]].
      intros [f' [id [n [v [L X]]]]]. exists f', id, n, v. split; [lia|exact X].
    - intros c' a b id n v -> [-> ->] LV _. unfold recursively_expand.
      fold (nbody f n v).
      destruct (busy st id n) eqn:B.
      + unfold count. rewrite H. cbn [find].
        destruct (nbody f n v) as [[x y]|e|] eqn:N.
        * right. exists f, id, n, v. rewrite N. split; [lia|]. split; [exact B|]. split; [exact LV|discriminate].
        * right. exists f, id, n, v. rewrite N. split; [lia|]. split; [exact B|]. split; [exact LV|discriminate].
        * left. split; [exact I|reflexivity].
      + set (body1 := if v_append v then variable_append (expand ftab true G) c (set_busy st id n true) n true c
                      else expand ftab true G c (set_busy st id n true) (v_value v)).
        (* the body against the unchecked body, at every depth up to f *)
        assert (Bd : forall f', f' <= f -> RR True (fun _ => needs f' (set_busy st id n true)) (keeps (set_busy st id n true) st0) body1 (nbody f' n v)).
        { intros f' Hf. unfold body1, nbody. destruct (v_append v).
          - apply append_RR with (CP := fun c' => c' = c); [auto| |reflexivity|split; reflexivity].
            intros c0 a b t0 -> [-> ->]. apply IH; [lia|exact H].
          - apply IH; [lia|exact H]. }
        (* a report inside must come from a variable that was busy before *)
        assert (Out : (exists i m, body1 = XFail (XSelf i m)) -> forall f', f' <= f -> nbody f' n v <> XFuel -> needs (S f) st).
        { intros [i [m Hb]]. induction f' as [f' IHf] using lt_wf_ind. intros Hf Hn.
          destruct (Bd f' Hf) as [[_ X]|X]; [congruence|]. rewrite Hb in X.
          destruct X as [f2 [id2 [n2 [v2 [X1 [X2 [X3 X4]]]]]]]. rewrite busy_set in X2. apply orb_true_iff in X2. destruct X2 as [X2|X2].
          - exists f2, id2, n2, v2. split; [lia|]. auto.
          - apply key_eqb_eq in X2. inversion X2; subst id2 n2. rewrite LV in X3. inversion X3; subst v2.
            apply (IHf f2); [exact X1|lia|exact X4]. }
        specialize (Bd f (le_n f)). destruct Bd as [[_ Bd]|Bd]; [left; split; [exact I|exact Bd]|].
        destruct body1 as [[a s]|e|] eqn:Eb.
        * destruct Bd as [s2 [Bd [-> ->]]]. cbn [xbind]. right. exists st0. split; [exact Bd|].
          split; [apply busy_restore; exact B|reflexivity].
        * cbn [xbind]. destruct e; try (right; exact Bd).
          destruct (nbody f n v) as [p|q|] eqn:N; [| |left; split; [exact I|reflexivity]];
            right; (apply (Out (ex_intro _ _ (ex_intro _ _ eq_refl)) f (le_n f)); rewrite N; discriminate).
        * right. exact I.
    - left. split; assumption.
    - left. assumption.
    - reflexivity.
    - split; reflexivity.
  Qed.

  Lemma report_endless : forall G t i n, expand ftab true G c st0 t = XFail (XSelf i n) ->
    forall f, expand ftab false f c st0 t = XFuel.
  Proof.
    intros G t i n R f. pose proof (exact_RR f G st0 t eq_refl) as X. rewrite R in X.
    destruct X as [[_ X]|[f' [id [m [v [_ [X _]]]]]]]; [exact X|discriminate].
  Qed.
End Exact.

(** ** The checked expansion always ends *)
Section Ends.
  Variable ftab : str -> option fent.
  Hypothesis NC : no_call ftab.

  Section Step.
  Variable rec : chain -> xst -> str -> xres (xst * str).
  Variable st : xst.
  Variable CP : chain -> Prop.
  Variable L : nat.
  (** ends, and leaves the state alone *)
  Definition fine {A} (r : xres (xst * A)) : Prop := match r with XOk (s, _) => s = st | XFail _ => True | XFuel => False end.
  Hypothesis Hrec : forall c t, CP c -> length t < L -> fine (rec c st t).
  Hypothesis Hvar : forall c id n v, CP c -> lookup_variable n c = Some (id, v) -> v_recursive v = true ->
    fine (recursively_expand true rec c st id n v).
  Hypothesis Hpush : forall c s, CP c -> all_simple s -> CP (pushed s c).

  Lemma fine_bind : forall A B (r : xres (xst * A)) (f : xst * A -> xres (xst * B)),
    fine r -> (forall a, fine (f (st, a))) -> fine (xbind r f).
  Proof. intros A B [[s a]|e|] f H Hf; cbn [xbind]; [simpl in H; subst s; apply Hf|exact I|exact H]. Qed.
  Lemma fine_ok : forall A (a : A), fine (XOk (st, a)). Proof. reflexivity. Qed.

  Lemma reference_fine : forall c n, CP c -> fine (reference_variable true rec c st n).
  Proof.
    intros c n HC. unfold reference_variable. destruct (lookup_variable n c) as [[id v]|] eqn:LV; [|apply fine_ok].
    assert (G : fine (if v_recursive v then recursively_expand true rec c st id n v else XOk (st, v_value v))).
    { destruct (v_recursive v) eqn:R; [apply Hvar; assumption|apply fine_ok]. }
    destruct (v_value v); [destruct (v_append v); [exact G|apply fine_ok]|exact G].
  Qed.
  Lemma full_fine : forall c t, CP c -> fine (full_reference true rec c st t).
  Proof.
    intros c t HC. unfold full_reference.
    destruct (cut_at c_colon t) as [[n sub]|]; [|apply reference_fine; assumption].
    destruct (cut_at c_eq sub) as [[a b]|]; [|apply reference_fine; assumption].
    destruct (lookup_variable n c) as [[id v]|] eqn:LV; [|apply fine_ok].
    destruct (v_value v) as [|x l] eqn:V; [apply fine_ok|]. rewrite <- V. apply fine_bind.
    - destruct (v_recursive v) eqn:R; [apply Hvar; assumption|apply fine_ok].
    - intros value. destruct (subst_ref_total value a b) as [s ->]. apply fine_ok.
  Qed.
  Lemma args_fine : forall c (l : list str), CP c -> (forall a, In a l -> length a < L) -> fine (expand_args rec c st l).
  Proof.
    intros c. induction l as [|a l IH]; intros HC HL; cbn [expand_args]; [apply fine_ok|].
    apply fine_bind; [apply Hrec; [exact HC|apply HL; left; reflexivity]|]. intros x.
    apply fine_bind; [apply IH; [exact HC|intros b Hb; apply HL; right; exact Hb]|]. intros xs. apply fine_ok.
  Qed.
  Lemma loop_fine : forall c vn body ws, CP c -> length body < L -> fine (foreach_loop rec c vn body st ws).
  Proof.
    intros c vn body. induction ws as [|w ws IH]; intros HC HL; cbn [foreach_loop]; [apply fine_ok|].
    apply fine_bind.
    - apply Hrec; [|exact HL]. apply Hpush; [exact HC|]. intros n v [H|[]]. inversion H; subst. split; [reflexivity|split; reflexivity].
    - intros s. apply fine_bind; [apply IH; assumption|]. intros s'. apply fine_ok.
  Qed.
  Lemma strip_lt : forall a x l, strip_whitespace a = x :: l -> length a < L -> length (x :: l) < L.
  Proof. intros a x l H Ha. rewrite <- H. pose proof (strip_len a). lia. Qed.
  Lemma or_fine : forall c (l : list str), CP c -> (forall a, In a l -> length a < L) -> fine (func_or rec c st l).
  Proof.
    intros c. induction l as [|a l IH]; intros HC HL; cbn [func_or]; [apply fine_ok|].
    assert (HL' : forall b, In b l -> length b < L) by (intros b Hb; apply HL; right; exact Hb).
    destruct (strip_whitespace a) as [|x m] eqn:S; [apply IH; assumption|].
    apply fine_bind; [apply Hrec; [exact HC|eapply strip_lt; [exact S|apply HL; left; reflexivity]]|].
    intros [|y q]; [apply IH; assumption|apply fine_ok].
  Qed.
  Lemma and_fine : forall c (l : list str), CP c -> (forall a, In a l -> length a < L) -> fine (func_and rec c st l).
  Proof.
    intros c. induction l as [|a l IH]; intros HC HL; cbn [func_and]; [exact I|].
    assert (HL' : forall b, In b l -> length b < L) by (intros b Hb; apply HL; right; exact Hb).
    destruct (strip_whitespace a) as [|x m] eqn:S; [apply fine_ok|].
    apply fine_bind; [apply Hrec; [exact HC|eapply strip_lt; [exact S|apply HL; left; reflexivity]]|].
    intros [|y q]; [apply fine_ok|]. destruct l; [apply fine_ok|apply IH; assumption].
  Qed.
  Lemma if_fine : forall c (l : list str), CP c -> (forall a, In a l -> length a < L) -> fine (func_if rec c st l).
  Proof.
    intros c [|a l] HC HL; cbn [func_if]; [exact I|]. apply fine_bind.
    - destruct (strip_whitespace a) as [|x m] eqn:S; [apply fine_ok|].
      apply fine_bind; [apply Hrec; [exact HC|eapply strip_lt; [exact S|apply HL; left; reflexivity]]|].
      intros q. apply fine_ok.
    - intros b. destruct (nth_error l (if b then 0 else 1)) as [x|] eqn:N; [|apply fine_ok].
      apply Hrec; [exact HC|]. apply HL. right. eapply nth_error_In. exact N.
  Qed.
  Lemma foreach_fine : forall c (l : list str), CP c -> (forall a, In a l -> length a < L) -> fine (func_foreach rec c st l).
  Proof.
    intros c l HC HL. unfold func_foreach. destruct l as [|a [|b [|body l]]]; try exact I.
    apply fine_bind; [apply Hrec; [exact HC|apply HL; left; reflexivity]|]. intros vn.
    apply fine_bind; [apply Hrec; [exact HC|apply HL; right; left; reflexivity]|]. intros lst.
    rewrite each_token_words. apply loop_fine; [exact HC|]. apply HL. right. right. left. reflexivity.
  Qed.
  (** Unexpanded arguments are part of the text; expanded ones are not expanded again. *)
  Lemma builtin_fine : forall depth c e (l : list str), CP c -> (exists n, ftab n = Some e) ->
    (f_expand e = false -> forall a, In a l -> length a < L) -> fine (builtin ftab rec depth c st e l).
  Proof.
    intros depth c e l HC [fn He] HL. destruct depth; cbn [builtin];
      (destruct (length l <? f_min e); [exact I|]); (destruct l as [|a args]; [apply fine_ok|]);
      unfold f_expand in HL;
      (destruct (f_kind e) as [f| | | | | | | | |] eqn:K;
       [destruct (f _); [apply fine_ok|exact I]
       | apply foreach_fine; [exact HC|auto] | apply if_fine; [exact HC|auto] | apply or_fine; [exact HC|auto]
       | apply and_fine; [exact HC|auto]
       | exfalso; exact (NC _ _ He K)
       | apply fine_ok
       | destruct (lookup_variable a c) as [[id v]|]; [|apply fine_ok]; destruct (origin_name (v_origin v)); [apply fine_ok|exact I]
       | apply fine_ok
       | exact I]).
  Qed.
  Lemma run_fine : forall c op cl e text, CP c -> (exists n, ftab n = Some e) -> length text < L ->
    fine (run_function ftab rec c st op cl e text).
  Proof.
    intros c op cl e text HC He HL. unfold run_function.
    assert (A : forall a, In a (split_args op cl (f_max e) (length text) 0 text) -> length a < L).
    { intros a Ha. apply split_args_len in Ha. lia. }
    destruct (f_expand e) eqn:X.
    - apply fine_bind; [apply args_fine; assumption|]. intros xs. apply builtin_fine; [exact HC|exact He|congruence].
    - apply builtin_fine; [exact HC|exact He|auto].
  Qed.
  Lemma scan_fine : forall n c t out, CP c -> length t < n -> length t <= L -> fine (scan ftab true rec n c st t out).
  Proof.
    induction n as [|n IH]; intros c t out HC Hn HL; [lia|]. cbn [scan].
    destruct (cut_at c_dollar t) as [[lit r]|] eqn:C; [|apply fine_ok].
    apply cut_at_spec in C. destruct C as [-> _]. rewrite app_length in *. cbn [length] in *.
    destruct r as [|x r]; [apply fine_ok|]. cbn [length] in *.
    destruct (x =?c c_dollar); [apply IH; [exact HC|lia|lia]|].
    destruct ((x =?c c_lparen) || (x =?c c_lbrace)).
    - destruct (lookup_function ftab r) as [[len e]|] eqn:LF.
      + destruct (match_close x _ 0 (next_token (skipn len r))) as [[text rest]|] eqn:M; [|exact I].
        apply match_close_app in M. pose proof (next_token_len (skipn len r)) as Le. rewrite M, app_length, skipn_length in Le.
        cbn [length] in Le. apply fine_bind; [apply run_fine; [exact HC|eapply lookup_function_in; exact LF|lia]|].
        intros s. apply IH; [exact HC|lia|lia].
      + destruct (cut_at _ r) as [[raw after]|] eqn:R; [|exact I].
        destruct (cut_at c_dollar raw) as [p|].
        * destruct (match_close x _ 0 r) as [[inner rest]|] eqn:M.
          -- apply match_close_app in M. rewrite M, app_length in Hn, HL. cbn [length] in *.
             apply fine_bind; [apply Hrec; [exact HC|lia]|]. intros t'.
             apply fine_bind; [apply full_fine; exact HC|]. intros s. apply IH; [exact HC|lia|lia].
          -- apply fine_bind; [apply full_fine; exact HC|]. intros s. apply fine_ok.
        * apply cut_at_spec in R. destruct R as [-> _]. rewrite app_length in Hn, HL. cbn [length] in *.
          apply fine_bind; [apply full_fine; exact HC|]. intros s. apply IH; [exact HC|lia|lia].
    - apply fine_bind; [apply reference_fine; exact HC|]. intros s. apply IH; [exact HC|lia|lia].
  Qed.
  End Step.

  (** The recursive variables of a chain, and the length of their values. *)
  Variable K : list (nat * str).
  Variable M : nat.
  Definition within (c : chain) : Prop := forall nd n v, In nd c -> In (n, v) (n_set nd) -> v_recursive v = true ->
    In (n_id nd, n) K /\ length (v_value v) <= M.
  Definition idle (st : xst) : nat := length (filter (fun k => negb (busy st (fst k) (snd k))) K).

  Lemma within_push : forall c s, within c -> all_simple s -> within (pushed s c).
  Proof.
    intros c s H Hs nd n v [<-|Hn] Hv R; [|eapply H; eauto]. simpl in Hv. destruct (Hs _ _ Hv). congruence.
  Qed.
  Lemma within_lookup : forall c n id v, within c -> lookup_variable n c = Some (id, v) -> v_recursive v = true ->
    In (id, n) K /\ length (v_value v) <= M.
  Proof.
    intros c n id v H. unfold lookup_variable. generalize false.
    assert (G : forall w, incl w c -> forall b, lookup_from b n w = Some (id, v) -> v_recursive v = true -> In (id, n) K /\ length (v_value v) <= M).
    { induction w as [|nd w IH]; intros Hi b HL R; [discriminate|]. cbn [lookup_from] in HL.
      assert (Hi' : incl w c) by (intros x Hx; apply Hi; right; exact Hx).
      destruct (set_find n (n_set nd)) as [u|] eqn:S.
      - destruct (negb b || negb (v_private u)); [|eapply IH; eauto]. inversion HL; subst.
        apply (H nd n v); [apply Hi; left; reflexivity|apply set_find_in; exact S|exact R].
      - eapply IH; eauto. }
    intros b. apply G. intros x Hx. exact Hx.
  Qed.

  Lemma filter_lt : forall A (f g : A -> bool) l x, In x l -> f x = true -> g x = false ->
    (forall y, g y = true -> f y = true) -> length (filter g l) < length (filter f l).
  Proof.
    intros A f g l x Hx Hf Hg H. induction l as [|y l IH]; [destruct Hx|].
    assert (Le : length (filter g l) <= length (filter f l)).
    { clear - H. induction l as [|y l IH]; [simpl; lia|]. simpl. destruct (g y) eqn:G.
      - rewrite (H _ G). simpl. lia.
      - destruct (f y); simpl; lia. }
    simpl. destruct Hx as [->|Hx].
    - rewrite Hf, Hg. simpl. lia.
    - specialize (IH Hx). destruct (g y) eqn:G; [rewrite (H _ G); simpl; lia|]. destruct (f y); simpl; lia.
  Qed.
  Lemma idle_dec : forall st i n, In (i, n) K -> busy st i n = false -> idle (set_busy st i n true) < idle st.
  Proof.
    intros st i n Hi Hb. unfold idle. apply filter_lt with (x := (i, n)); [exact Hi| | |].
    - simpl. rewrite Hb. reflexivity.
    - simpl. rewrite busy_set, key_eqb_refl, orb_true_r. reflexivity.
    - intros [j m]. simpl. rewrite busy_set. destruct (busy st j m); [discriminate|reflexivity].
  Qed.

  Lemma expand_ends : forall fuel c st t, within c -> x_count st = [] ->
    length t + idle st * S M < fuel -> fine st (expand ftab true fuel c st t).
  Proof.
    induction fuel as [|fuel IH]; intros c st t W H0 Hf; [lia|]. cbn [expand].
    apply scan_fine with (CP := within) (L := length t).
    - intros c' t' W' Hl. apply IH; [exact W'|exact H0|lia].
    - intros c' id n v W' LV R. unfold recursively_expand.
      destruct (busy st id n) eqn:B; [unfold count; rewrite H0; exact I|].
      destruct (within_lookup _ _ _ _ W' LV R) as [HK HM].
      pose proof (idle_dec st id n HK B) as D.
      assert (Budget : forall x : str, length x <= M -> length x + idle (set_busy st id n true) * S M < fuel).
      { intros x Hx. assert (S (idle (set_busy st id n true)) * S M <= idle st * S M) by (apply Nat.mul_le_mono_r; lia).
        cbn [Nat.mul] in *. lia. }
      assert (G : fine (set_busy st id n true)
         (if v_append v then variable_append (expand ftab true fuel) c' (set_busy st id n true) n true c'
          else expand ftab true fuel c' (set_busy st id n true) (v_value v))).
      { destruct (v_append v); [|apply IH; [exact W'|exact H0|apply Budget; exact HM]].
        assert (A : forall w local, incl w c' -> fine (set_busy st id n true) (variable_append (expand ftab true fuel) c' (set_busy st id n true) n local w)).
        { induction w as [|nd w IHw]; intros local Hi; cbn [variable_append]; [reflexivity|].
          assert (Hi' : incl w c') by (intros x Hx; apply Hi; right; exact Hx).
          destruct (set_find n (n_set nd)) as [u|] eqn:S; [|apply IHw; exact Hi'].
          destruct (negb local && v_private u); [apply IHw; exact Hi'|].
          apply fine_bind.
          - destruct (v_append u); [apply IHw; exact Hi'|reflexivity].
          - intros buf. destruct (v_recursive u) eqn:Ru; [|reflexivity]. apply fine_bind; [|intros s; reflexivity].
            apply IH; [exact W'|exact H0|]. apply Budget.
            apply (W' nd n u); [apply Hi; left; reflexivity|apply set_find_in; exact S|exact Ru]. }
        apply A. intros x Hx. exact Hx. }
      destruct (if v_append v then _ else expand ftab true fuel c' (set_busy st id n true) (v_value v)) as [[a s]|e|]; cbn [xbind].
      + simpl in G. subst a. simpl. apply busy_restore. exact B.
      + exact I.
      + exact G.
    - intros c' s W' Hs. apply within_push; assumption.
    - exact W.
    - lia.
    - lia.
  Qed.
End Ends.

(** The recursive variables of a chain. *)
Definition rec_keys (c : chain) : list (nat * str) :=
  flat_map (fun nd => map (fun nv => (n_id nd, fst nv)) (filter (fun nv => v_recursive (snd nv)) (n_set nd))) c.
Definition longest (c : chain) : nat :=
  list_max (flat_map (fun nd => map (fun nv => length (v_value (snd nv))) (n_set nd)) c).
Lemma within_chain : forall c, within (rec_keys c) (longest c) c.
Proof.
  intros c nd n v Hn Hv R. split.
  - unfold rec_keys. apply in_flat_map. exists nd. split; [exact Hn|]. apply in_map_iff. exists (n, v). split; [reflexivity|].
    apply filter_In. split; [exact Hv|exact R].
  - unfold longest. pose proof (proj1 (list_max_le (flat_map (fun nd => map (fun nv => length (v_value (snd nv))) (n_set nd)) c) _) (le_n _)) as G.
    rewrite Forall_forall in G. apply G. apply in_flat_map. exists nd. split; [exact Hn|]. apply in_map_iff. exists (n, v). auto.
Qed.
Lemma idle_le : forall K st, idle K st <= length K.
Proof. intros K st. unfold idle. induction K as [|k K IH]; [reflexivity|]. simpl. destruct (negb _); simpl; lia. Qed.

(** Deeper nesting allowed changes no finished expansion. *)
Section Mono.
  Variable ftab : str -> option fent.
  Variable g : bool.
  Lemma expand_mono_RR : forall fuel fuel' c st t, fuel <= fuel' ->
    RR False (fun p => p) eq (expand ftab g fuel c st t) (expand ftab g fuel' c st t).
  Proof.
    induction fuel as [|fuel IH]; intros fuel' c st t H; [apply RR_fuel|]. destruct fuel' as [|fuel']; [lia|]. cbn [expand].
    apply scan_RR with (CP := fun _ => True); auto.
    - intros c' a b t' _ <-. apply IH. lia.
    - intros c' a b id n v _ <- _ _. unfold recursively_expand.
      assert (B : forall a', RR False (fun p => p) eq
        (if v_append v then variable_append (expand ftab g fuel) c' a' n true c' else expand ftab g fuel c' a' (v_value v))
        (if v_append v then variable_append (expand ftab g fuel') c' a' n true c' else expand ftab g fuel' c' a' (v_value v))).
      { intros a'. destruct (v_append v); [|apply IH; lia].
        apply append_RR with (CP := fun _ => True); [auto|intros c0 x y t0 _ <-; apply IH; lia|exact I|reflexivity]. }
      destruct g; [|apply B].
      assert (B' : forall a', RR False (fun p => p) eq
        (xbind (if v_append v then variable_append (expand ftab true fuel) c' a' n true c' else expand ftab true fuel c' a' (v_value v))
               (fun '(st, s) => XOk (set_busy st id n false, s)))
        (xbind (if v_append v then variable_append (expand ftab true fuel') c' a' n true c' else expand ftab true fuel' c' a' (v_value v))
               (fun '(st, s) => XOk (set_busy st id n false, s)))).
      { intros a'. apply RR_bind; [auto|apply B|]. intros x y s <-. apply RR_ok. reflexivity. }
      destruct (busy a id n); [|apply B'].
      destruct (count a id n) as [|k]; [right; reflexivity|apply B'].
    - right. intros a b <-. split; [reflexivity|]. split; reflexivity.
  Qed.
  Lemma expand_mono : forall fuel fuel' c st t, fuel <= fuel' -> expand ftab g fuel c st t <> XFuel ->
    expand ftab g fuel' c st t = expand ftab g fuel c st t.
  Proof.
    intros fuel fuel' c st t H N. destruct (expand_mono_RR fuel fuel' c st t H) as [[[] _]|G].
    destruct (expand ftab g fuel c st t) as [[s x]|e|]; [|destruct e; exact G|congruence].
    destruct G as [s2 [G <-]]. exact G.
  Qed.
End Mono.

(** ** Calls *)
Section Calls.
  Variables op cl : ascii.
  Hypothesis OC : op <> cl.

  Definition pre (p : str) (r : option (str * str)) : option (str * str) :=
    match r with Some (a, b) => Some (p ++ a, b) | None => None end.
  Lemma match_nested : forall t, nested op cl t -> forall k r, match_close op cl k (t ++ r) = pre t (match_close op cl k r).
  Proof.
    intros t H. induction H as [|c t Ho Hc H IH|a b Ha IHa Hb IHb]; intros k r.
    - cbn [app]. destruct (match_close op cl k r) as [[? ?]|]; reflexivity.
    - cbn [app match_close].
      destruct (c =?c op) eqn:E1; [apply eqc_true in E1; congruence|].
      destruct (c =?c cl) eqn:E2; [apply eqc_true in E2; congruence|]. rewrite IH.
      destruct (match_close op cl k r) as [[? ?]|]; reflexivity.
    - cbn [app]. rewrite <- app_assoc. cbn [app match_close]. rewrite eqc_refl, IHa. cbn [match_close].
      destruct (cl =?c op) eqn:E1; [apply eqc_true in E1; congruence|]. rewrite eqc_refl, IHb.
      destruct (match_close op cl k r) as [[x y]|]; cbn [pre]; [|reflexivity]. cbn [app]. rewrite <- app_assoc. reflexivity.
  Qed.
  Lemma match_call : forall t r, nested op cl t -> match_close op cl 0 (t ++ cl :: r) = Some (t, r).
  Proof.
    intros t r H. rewrite match_nested by exact H. cbn [match_close].
    destruct (cl =?c op) eqn:E1; [apply eqc_true in E1; congruence|]. rewrite eqc_refl. cbn [pre]. rewrite app_nil_r. reflexivity.
  Qed.

  Hypothesis Oc : op <> c_comma.
  Hypothesis Cc : cl <> c_comma.
  Lemma next_nested : forall t, nested op cl t -> forall k r, next_argument op cl (S k) (t ++ r) = pre t (next_argument op cl (S k) r).
  Proof.
    intros t H. induction H as [|c t Ho Hc H IH|a b Ha IHa Hb IHb]; intros k r.
    - cbn [app]. destruct (next_argument op cl (S k) r) as [[? ?]|]; reflexivity.
    - cbn [app next_argument].
      destruct (c =?c op) eqn:E1; [apply eqc_true in E1; congruence|].
      destruct (c =?c cl) eqn:E2; [apply eqc_true in E2; congruence|].
      rewrite IH.
      change (S k =? 0) with false. rewrite andb_false_r.
      destruct (next_argument op cl (S k) r) as [[? ?]|]; reflexivity.
    - cbn [app]. rewrite <- app_assoc. cbn [app next_argument]. rewrite eqc_refl, IHa. cbn [next_argument].
      destruct (cl =?c op) eqn:E1; [apply eqc_true in E1; congruence|]. rewrite eqc_refl, IHb.
      destruct (next_argument op cl (S k) r) as [[x y]|]; cbn [pre]; [|reflexivity]. cbn [app]. rewrite <- app_assoc. reflexivity.
  Qed.
  Lemma next_one : forall t, one_arg op cl t -> forall r, next_argument op cl 0 (t ++ r) = pre t (next_argument op cl 0 r).
  Proof.
    intros t H. induction H as [|c t Ho Hc Hm H IH|a b Ha Hb IHb]; intros r.
    - cbn [app]. destruct (next_argument op cl 0 r) as [[? ?]|]; reflexivity.
    - cbn [app next_argument].
      destruct (c =?c op) eqn:E1; [apply eqc_true in E1; congruence|].
      destruct (c =?c cl) eqn:E2; [apply eqc_true in E2; congruence|].
      rewrite IH.
      destruct (c =?c c_comma) eqn:E3; [apply eqc_true in E3; congruence|]. cbn [andb].
      destruct (next_argument op cl 0 r) as [[? ?]|]; reflexivity.
    - cbn [app]. rewrite <- app_assoc. cbn [app next_argument]. rewrite eqc_refl, next_nested by exact Ha. cbn [next_argument].
      destruct (cl =?c op) eqn:E1; [apply eqc_true in E1; congruence|]. rewrite eqc_refl, IHb.
      destruct (next_argument op cl 0 r) as [[x y]|]; cbn [pre]; [|reflexivity]. cbn [app]. rewrite <- app_assoc. reflexivity.
  Qed.

  Lemma split_commas : forall max l n fuel, l <> [] -> (forall a, In a l -> one_arg op cl a) ->
    (max = 0 \/ n + length l <= max) -> length l <= S fuel ->
    split_args op cl max fuel n (commas l) = l.
  Proof.
    intros max. induction l as [|a l IH]; intros n fuel Hne Ha Hm Hf; [congruence|].
    assert (Last : next_argument op cl 0 a = None).
    { rewrite <- (app_nil_r a), next_one by (apply Ha; left; reflexivity). reflexivity. }
    destruct l as [|b l].
    - cbn [commas]. destruct fuel; cbn [split_args]; [reflexivity|]. rewrite Last. destruct (S n =? max); reflexivity.
    - change (commas (a :: b :: l)) with (a ++ c_comma :: commas (b :: l)).
      destruct fuel as [|fuel]; [cbn [length] in Hf; lia|]. cbn [split_args].
      destruct (Nat.eqb_spec (S n) max) as [E|E]; [cbn [length] in Hm; lia|].
      rewrite next_one by (apply Ha; left; reflexivity). cbn [next_argument].
      destruct (c_comma =?c op) eqn:E1; [apply eqc_true in E1; congruence|].
      destruct (c_comma =?c cl) eqn:E2; [apply eqc_true in E2; congruence|]. cbn [pre andb Nat.eqb].
      rewrite eqc_refl. cbn [andb pre]. rewrite app_nil_r. f_equal. apply IH.
      + discriminate.
      + intros x Hx. apply Ha. right. exact Hx.
      + cbn [length] in *. lia.
      + cbn [length] in *. lia.
  Qed.

  (** Whatever the text: the arguments joined by commas are the text, at most MAX of them. *)
  Lemma split_joins : forall max fuel n s, commas (split_args op cl max fuel n s) = s.
  Proof.
    intros max. induction fuel as [|f IH]; intros n s; cbn [split_args]; [reflexivity|].
    destruct (S n =? max); [reflexivity|]. destruct (next_argument op cl 0 s) as [[a r]|] eqn:E; [|reflexivity].
    apply next_argument_app in E. rewrite E. specialize (IH (S n) r).
    assert (Ne : split_args op cl max f (S n) r <> []).
    { destruct f; cbn [split_args]; [discriminate|]. destruct (S (S n) =? max); [discriminate|].
      destruct (next_argument op cl 0 r) as [[? ?]|]; discriminate. }
    destruct (split_args op cl max f (S n) r) as [|b l] eqn:S; [congruence|].
    change (commas (a :: b :: l)) with (a ++ c_comma :: commas (b :: l)). rewrite IH. reflexivity.
  Qed.
  Lemma split_bound : forall max fuel n s, n < max -> n + length (split_args op cl max fuel n s) <= max.
  Proof.
    intros max. induction fuel as [|f IH]; intros n s H; cbn [split_args]; [cbn [length]; lia|].
    destruct (Nat.eqb_spec (S n) max) as [E|E]; [cbn [length]; lia|].
    destruct (next_argument op cl 0 s) as [[a r]|]; [|cbn [length]; lia]. cbn [length].
    specialize (IH (S n) r ltac:(lia)). lia.
  Qed.
  Lemma one_nested : forall t, one_arg op cl t -> nested op cl t.
  Proof. intros t H. induction H; [constructor|apply ne_char; assumption|apply ne_paren; assumption]. Qed.
  Lemma nested_app : forall a, nested op cl a -> forall b, nested op cl b -> nested op cl (a ++ b).
  Proof.
    intros a H. induction H as [|c t Ho Hc H IH|x y Hx IHx Hy IHy]; intros b Hb; [exact Hb|constructor; auto|].
    cbn [app]. rewrite <- app_assoc. cbn [app]. apply ne_paren; auto.
  Qed.
  Lemma commas_nested : forall l, (forall a, In a l -> one_arg op cl a) -> nested op cl (commas l).
  Proof.
    induction l as [|a l IH]; intros H; [constructor|]. destruct l as [|b l]; [apply one_nested; apply H; left; reflexivity|].
    change (commas (a :: b :: l)) with (a ++ c_comma :: commas (b :: l)). apply nested_app.
    - apply one_nested. apply H. left. reflexivity.
    - constructor; [congruence|congruence|]. apply IH. intros x Hx. apply H. right. exact Hx.
  Qed.
  Lemma commas_len : forall l, l <> [] -> length l <= S (length (commas l)).
  Proof.
    induction l as [|a l IH]; intros H; [congruence|]. destruct l as [|b l]; [cbn [length]; lia|].
    change (commas (a :: b :: l)) with (a ++ c_comma :: commas (b :: l)). rewrite app_length. cbn [length] in *.
    specialize (IH ltac:(discriminate)). lia.
  Qed.
End Calls.

Lemma span_app : forall f a c r, (forall x, In x a -> f x = true) -> f c = false -> span f (a ++ c :: r) = (a, c :: r).
Proof.
  intros f. induction a as [|x a IH]; intros c r H Hc; cbn [app span]; [rewrite Hc; reflexivity|].
  rewrite (H x) by (left; reflexivity). rewrite IH; [reflexivity| |exact Hc]. intros y Hy. apply H. right. exact Hy.
Qed.
Lemma span_all : forall f a, (forall x, In x a -> f x = true) -> span f a = (a, []).
Proof.
  intros f. induction a as [|x a IH]; intros H; [reflexivity|]. cbn [span].
  rewrite (H x) by (left; reflexivity). rewrite IH; [reflexivity|]. intros y Hy. apply H. right. exact Hy.
Qed.
Lemma space_not_user : is_userfunc c_sp = false. Proof. reflexivity. Qed.

Lemma lookup_function_named : forall ftab name e r, name <> [] -> (forall x, In x name -> is_userfunc x = true) ->
  length name < 256 -> ftab name = Some e -> lookup_function ftab (name ++ c_sp :: r) = Some (length name, e).
Proof.
  intros ftab name e r Hn Hu Hl He. unfold lookup_function. rewrite span_app by (exact Hu || exact space_not_user).
  destruct name as [|x l] eqn:En; [congruence|]. rewrite <- En in *. cbn [isspace].
  rewrite (Nat.mod_small _ _ Hl). replace (isspace c_sp) with true by reflexivity.
  rewrite firstn_app, Nat.sub_diag. cbn [firstn]. rewrite app_nil_r, firstn_all, He. reflexivity.
Qed.

(** A call of an ordinary function with literal arguments. *)
Lemma expand_call : forall ftab g fuel c st name e f args r rest, 
  name <> [] -> (forall x, In x name -> is_userfunc x = true) -> length name < 256 ->
  ftab name = Some e -> f_kind e = KPure f ->
  args <> [] -> (forall a, In a args -> one_arg c_lparen c_rparen a /\ ~ In c_dollar a) ->
  (forall x l, commas args = x :: l -> isspace x = false) ->
  f_min e <= length args -> (f_max e = 0 \/ length args <= f_max e) -> f args = Some r ->
  expand ftab g (S (S fuel)) c st (c_dollar :: c_lparen :: name ++ c_sp :: commas args ++ c_rparen :: rest)
  = prefixed r (expand ftab g (S (S fuel)) c st rest).
Proof.
  intros ftab g fuel c st name e f args r rest Hn Hu Hl He Hk Ha Hargs Hsp Hmin Hmax Hf.
  assert (Hone : forall a, In a args -> one_arg c_lparen c_rparen a) by (intros a Hi; apply Hargs; exact Hi).
  remember (S fuel) as fu eqn:Efu. cbn [expand].
  set (rr := scan ftab g (expand ftab g fu) (S (length rest)) c st rest []).
  set (text := c_dollar :: c_lparen :: name ++ c_sp :: commas args ++ c_rparen :: rest).
  set (n := length text). cbn [scan].
  replace (cut_at c_dollar text) with (Some (@nil ascii, tl text)) by reflexivity. unfold text. cbn [tl].
  replace (c_lparen =?c c_dollar) with false by reflexivity.
  replace ((c_lparen =?c c_lparen) || (c_lparen =?c c_lbrace)) with true by reflexivity.
  replace (c_lparen =?c c_lparen) with true by reflexivity.
  rewrite (lookup_function_named ftab name e) by assumption.
  rewrite skipn_app, skipn_all, Nat.sub_diag. cbn [skipn app].
  assert (Nt : next_token (c_sp :: commas args ++ c_rparen :: rest) = commas args ++ c_rparen :: rest).
  { cbn [next_token]. replace (isspace c_sp) with true by reflexivity.
    destruct (commas args) as [|x l] eqn:Ec; [reflexivity|]. cbn [app next_token]. rewrite (Hsp x l eq_refl). reflexivity. }
  rewrite Nt, match_call by (discriminate || (apply commas_nested; [discriminate|discriminate|exact Hone])).
  assert (Run : run_function ftab (expand ftab g fu) c st c_lparen c_rparen e (commas args) = XOk (st, r)).
  { unfold run_function. rewrite split_commas; [|discriminate|discriminate|discriminate|exact Ha|exact Hone| |apply commas_len; exact Ha].
    2: { destruct Hmax; [left; assumption|right; lia]. }
    unfold f_expand. rewrite Hk.
    assert (Ea : forall l, (forall a, In a l -> ~ In c_dollar a) -> expand_args (expand ftab g fu) c st l = XOk (st, l)).
    { induction l as [|a l IH]; intros H; [reflexivity|]. cbn [expand_args].
      assert (X : expand ftab g fu c st a = XOk (st, a)).
      { subst fu. rewrite <- (app_nil_r a). rewrite <- (double_plain a) at 1 by (apply H; left; reflexivity).
        rewrite expand_double_prefix. cbn [expand length scan cut_at app prefixed]. reflexivity. }
      rewrite X. cbn [xbind]. rewrite IH by (intros b Hb; apply H; right; exact Hb). reflexivity. }
    rewrite Ea by (intros a Hi; apply Hargs; exact Hi). cbn [xbind].
    destruct args as [|a0 args0] eqn:Eargs; [congruence|]. rewrite <- Eargs in *.
    assert (Lt : (length args <? f_min e) = false) by (apply Nat.ltb_ge; exact Hmin).
    destruct (length args) as [|d] eqn:El; [rewrite Eargs in El; discriminate|]. cbn [builtin]. rewrite El, Lt, Eargs, Hk, <- Eargs, Hf. reflexivity. }
  rewrite Run. cbn [xbind]. rewrite <- (app_nil_r r) at 1. rewrite scan_out. unfold rr. f_equal.
  apply scan_fuel; [|lia]. unfold n, text. cbn [length]. rewrite app_length. cbn [length]. rewrite app_length. cbn [length]. lia.
Qed.
