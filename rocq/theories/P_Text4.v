From Coq Require Import Sorted Permutation.
From Verif Require Import Base M_Hash M_Quote S_Quote P_Quote M_Text S_Text P_Text P_Text2 P_Text3.
Open Scope nat_scope.

Lemma app_split2 : forall a b c d : str, a ++ b = c ++ d ->
  (exists u, c = a ++ u /\ b = u ++ d) \/ (exists u, a = c ++ u /\ d = u ++ b).
Proof.
  induction a as [|x a IH]; intros b [|y c] d E; simpl in E.
  - left. exists []. auto.
  - left. exists (y :: c). auto.
  - right. exists (x :: a). auto.
  - injection E as -> E. destruct (IH _ _ _ E) as [[u [-> ->]]|[u [-> ->]]]; [left|right]; exists u; auto.
Qed.

(** ** sort *)
Definition nul_free (s : str) : Prop := ~ In c_nul s.

Lemma nul_not_space : isspace c_nul = false. Proof. reflexivity. Qed.

Lemma m_next_token_ok : forall x z, nul_free x ->
  m_next_token (x ++ c_nul :: z) = Some (next_token x ++ c_nul :: z).
Proof.
  induction x as [|c x IH]; intros z H; [reflexivity|]. simpl. destruct (isspace c) eqn:E; [|reflexivity].
  apply IH. intros Hc. apply H. right. exact Hc.
Qed.

Lemma m_end_of_token_ok : forall x z w r, nul_free x -> end_of_token x = (w, r) ->
  m_end_of_token (x ++ c_nul :: z) = Some (w, r ++ c_nul :: z).
Proof.
  induction x as [|c x IH]; intros z w r H E; simpl in E.
  - inversion E; subst. reflexivity.
  - simpl. assert (Hc : (c =?c c_nul) = false).
    { apply Ascii.eqb_neq. intros ->. apply H. left. reflexivity. }
    rewrite Hc, orb_false_r. destruct (isspace c).
    + inversion E; subst. reflexivity.
    + destruct (end_of_token x) as [w' r'] eqn:E'. inversion E; subst.
      rewrite (IH z w' r); auto. intros Hn. apply H. right. exact Hn.
Qed.

Lemma nul_free_app : forall a b, nul_free (a ++ b) -> nul_free a /\ nul_free b.
Proof. unfold nul_free. intros a b H. split; intros Hc; apply H; apply in_or_app; auto. Qed.

Lemma sort_tokens_ok : forall fuel x g, nul_free x -> length x < fuel ->
  1 < fuel ->
  sort_tokens fuel (x ++ c_nul :: c_nul :: g) = Ok (words x).
Proof.
  induction fuel as [|k IH]; intros x g Hx L L1; [lia|]. cbn [sort_tokens].
  rewrite m_next_token_ok by exact Hx. rewrite words_fnt.
  destruct (next_token_spec x) as [sp [N1 [N2 N3]]].
  assert (Hn : nul_free (next_token x)) by (rewrite N2 in Hx; apply nul_free_app in Hx; tauto).
  unfold find_next_token. destruct (next_token x) as [|c n] eqn:En; [reflexivity|].
  assert (Hc : (first_char ((c :: n) ++ c_nul :: c_nul :: g) =?c c_nul) = false).
  { simpl. apply Ascii.eqb_neq. intros ->. apply Hn. left. reflexivity. }
  rewrite Hc. destruct (end_of_token (c :: n)) as [w r] eqn:Ee.
  rewrite (m_end_of_token_ok _ _ _ _ Hn Ee).
  destruct (end_of_token_spec _ _ _ Ee) as [H5 [H6 H7]].
  assert (Lx : length (w ++ r) <= length x) by (rewrite N2, <- H5, app_length; simpl; lia).
  assert (Hr : nul_free r) by (rewrite H5 in Hn; apply nul_free_app in Hn; tauto).
  assert (Hw : w <> []).
  { intros ->. simpl in H5. rewrite <- H5 in H7. simpl in H7. rewrite (N3 c n eq_refl) in H7. discriminate. }
  rewrite app_length in Lx. assert (0 < length w) by (destruct w; [contradiction|simpl; lia]).
  destruct r as [|d r]; cbn [app tl].
  - destruct k as [|k]; [lia|]. reflexivity.
  - simpl in Lx. rewrite IH; [|intros Hd; apply Hr; right; exact Hd|lia|lia].
    f_equal. f_equal. change (d :: r) with ([d] ++ r). symmetry. apply words_space.
    intros e [<-|[]]. exact H7.
Qed.

Lemma uchar_lt : forall a b, (uchar a - uchar b < 0)%Z <-> nat_of_ascii a < nat_of_ascii b.
Proof. intros. unfold uchar. lia. Qed.

Lemma nat_of_ascii_inj : forall a b, nat_of_ascii a = nat_of_ascii b -> a = b.
Proof. intros a b H. rewrite <- (ascii_nat_embedding a), <- (ascii_nat_embedding b), H. reflexivity. Qed.

Lemma nul_uchar : forall c s, nul_free (c :: s) -> 0 < nat_of_ascii c.
Proof.
  intros c s H. destruct (nat_of_ascii c) eqn:E; [|lia]. exfalso. apply H. left.
  apply nat_of_ascii_inj. rewrite E. reflexivity.
Qed.

Lemma strcmp_spec : forall a b, nul_free a -> nul_free b ->
  ((strcmp a b < 0)%Z <-> byte_lt a b) /\ ((strcmp a b = 0)%Z <-> a = b).
Proof.
  induction a as [|x a IH]; intros [|y b] Ha Hb; simpl.
  - split; split; intros H; try lia; try reflexivity. inversion H.
  - pose proof (nul_uchar _ _ Hb). unfold uchar. split; split; intros H'; try lia; try discriminate. constructor.
  - pose proof (nul_uchar _ _ Ha). unfold uchar. split; split; intros H'; try lia; try discriminate. inversion H'.
  - assert (Ha' : nul_free a) by (intros Hc; apply Ha; right; exact Hc).
    assert (Hb' : nul_free b) by (intros Hc; apply Hb; right; exact Hc).
    destruct (x =?c y) eqn:E.
    + apply eqc_true in E. subst y. destruct (IH b Ha' Hb') as [I1 I2]. split.
      * rewrite I1. split; intros H; [constructor; exact H|]. inversion H; subst; [lia|assumption].
      * rewrite I2. split; congruence.
    + apply eqc_false in E. split.
      * rewrite uchar_lt. split; intros H; [constructor; exact H|]. inversion H; subst; [assumption|congruence].
      * split; intros H; [|congruence]. exfalso. apply E. apply nat_of_ascii_inj. unfold uchar in H. lia.
Qed.

Lemma schar_signed : forall c, schar c = signed c.
Proof.
  intros c. unfold schar, signed. destruct (Z.ltb_spec (Z.of_nat (nat_of_ascii c)) 128);
    destruct (Nat.ltb_spec (nat_of_ascii c) 128); lia || reflexivity.
Qed.

Lemma signed_inj : forall a b, signed a = signed b -> a = b.
Proof.
  intros a b H. apply nat_of_ascii_inj. unfold signed in H.
  pose proof (nat_ascii_bounded a). pose proof (nat_ascii_bounded b).
  destruct (Nat.ltb_spec (nat_of_ascii a) 128); destruct (Nat.ltb_spec (nat_of_ascii b) 128); lia.
Qed.

Lemma alpha_spec : forall a b, nul_free a -> nul_free b -> a <> [] -> b <> [] ->
  ((alpha_compare a b <= 0)%Z <-> sort_lt a b \/ a = b).
Proof.
  intros [|x a] [|y b] Ha Hb Na Nb; try contradiction. unfold alpha_compare. cbn [first_char].
  destruct (x =?c y) eqn:E.
  - apply eqc_true in E. subst y.
    destruct (strcmp_spec (x :: a) (x :: b) Ha Hb) as [I1 I2].
    assert (B : byte_lt (x :: a) (x :: b) <-> sort_lt (x :: a) (x :: b)).
    { split; intros H; inversion H; subst; try lia; constructor; assumption. }
    rewrite <- B, <- I1, <- I2. lia.
  - apply eqc_false in E. rewrite !schar_signed.
    assert (signed x <> signed y) by (intros H; apply E, signed_inj, H).
    split; intros H'.
    + left. constructor. lia.
    + destruct H' as [H'|H']; [|congruence]. inversion H'; subst; [lia|congruence].
Qed.

Lemma byte_lt_trans : forall a b c, byte_lt a b -> byte_lt b c -> byte_lt a c.
Proof.
  induction a as [|x a IH]; intros b c H1 H2.
  - inversion H1; subst. inversion H2; subst; constructor.
  - inversion H1; subst; inversion H2; subst.
    + apply bl_head. lia.
    + apply bl_head. lia.
    + apply bl_head. lia.
    + apply bl_tail. eapply IH; eassumption.
Qed.
Lemma byte_lt_irrefl : forall a, ~ byte_lt a a.
Proof. induction a as [|x a IH]; intros H; inversion H; subst; [lia|]. apply IH. assumption. Qed.

Lemma sort_lt_trans : forall a b c, sort_lt a b -> sort_lt b c -> sort_lt a c.
Proof.
  intros a b c H1 H2. inversion H1; subst; inversion H2; subst.
  - apply sl_head. lia.
  - apply sl_head. lia.
  - apply sl_head. lia.
  - apply sl_tail. eapply byte_lt_trans; eassumption.
Qed.
Lemma sort_lt_irrefl : forall a, ~ sort_lt a a.
Proof. intros a H. inversion H; subst; [lia|]. eapply byte_lt_irrefl. eassumption. Qed.

Lemma sort_byte_lt : forall a b, ascii_start a -> ascii_start b -> sort_lt a b -> byte_lt a b.
Proof.
  intros a b [x [s [-> Hx]]] [y [t [-> Hy]]] H. inversion H; subst.
  - apply bl_head. unfold signed in *. apply Nat.ltb_lt in Hx. apply Nat.ltb_lt in Hy.
    rewrite Hx, Hy in *. lia.
  - apply bl_tail. assumption.
Qed.

Fixpoint dd (ws : list str) : list str :=
  match ws with
  | [] => []
  | w :: ws' => match ws' with
                | [] => [w]
                | n :: _ => if str_eqb w n then dd ws' else w :: dd ws'
                end
  end.

Lemma sort_write_dd : forall ws o, (forall w, In w ws -> nul_free w) ->
  sort_write o ws = o ++ concat (map (fun w => w ++ [c_sp]) (dd ws)).
Proof.
  induction ws as [|w ws IH]; intros o H; [simpl; rewrite app_nil_r; reflexivity|].
  cbn [sort_write dd]. destruct ws as [|n ws].
  - cbn [sort_write map concat]. rewrite app_nil_r. reflexivity.
  - assert (H' : forall w, In w (n :: ws) -> nul_free w) by (intros x Hx; apply H; right; exact Hx).
    assert (E : negb (length n =? length w) || negb (strcmp w n =? 0)%Z = negb (str_eqb w n)).
    { destruct (strcmp_spec w n) as [_ I2]; [apply H; left; reflexivity|apply H; right; left; reflexivity|].
      destruct (str_eqb w n) eqn:Ee.
      - apply str_eqb_eq in Ee. subst n. rewrite Nat.eqb_refl.
        destruct (Z.eqb_spec (strcmp w w) 0); [reflexivity|]. exfalso. apply n. apply I2. reflexivity.
      - apply str_eqb_neq in Ee. destruct (Z.eqb_spec (strcmp w n) 0); [|apply orb_true_r].
        exfalso. apply Ee. apply I2. assumption. }
    rewrite E. destruct (str_eqb w n); cbn [negb].
    + apply IH. exact H'.
    + rewrite IH by exact H'. cbn [map concat]. rewrite <- !app_assoc. reflexivity.
Qed.

Lemma dd_in : forall ws w, In w (dd ws) <-> In w ws.
Proof.
  induction ws as [|x ws IH]; intros w; [reflexivity|]. cbn [dd]. destruct ws as [|n ws]; [reflexivity|].
  destruct (str_eqb x n) eqn:E.
  - rewrite IH. apply str_eqb_eq in E. subst. simpl. tauto.
  - cbn [In]. rewrite IH. reflexivity.
Qed.

Lemma dd_nil : forall ws, dd ws = [] -> ws = [].
Proof.
  intros ws H. destruct ws as [|w ws]; [reflexivity|].
  assert (H0 : In w (dd (w :: ws))) by (apply dd_in; left; reflexivity).
  rewrite H in H0. contradiction.
Qed.

Lemma dd_sorted : forall ws, StronglySorted (fun a b => sort_lt a b \/ a = b) ws ->
  StronglySorted sort_lt (dd ws).
Proof.
  induction ws as [|x ws IH]; intros H; [constructor|]. cbn [dd]. inversion H; subst.
  destruct ws as [|n ws]; [constructor; constructor|].
  destruct (str_eqb x n) eqn:E; [apply IH; assumption|]. apply str_eqb_neq in E.
  constructor; [apply IH; assumption|]. apply Forall_forall. intros y Hy. apply (proj1 (dd_in _ _)) in Hy.
  rewrite Forall_forall in H3. destruct (H3 n (or_introl eq_refl)) as [L|L]; [|contradiction].
  destruct Hy as [<-|Hy]; [exact L|].
  inversion H2; subst. rewrite Forall_forall in H5. destruct (H5 y Hy) as [L'|L'].
  - eapply sort_lt_trans; eassumption.
  - subst y. exact L.
Qed.

Lemma Sorted_local : forall (R S : str -> str -> Prop) l, (forall a b, In a l -> In b l -> R a b -> S a b) ->
  Sorted R l -> Sorted S l.
Proof.
  induction l as [|x l IH]; intros H Hs; [constructor|]. inversion Hs; subst. constructor.
  - apply IH; [|assumption]. intros a b Ha Hb. apply H; right; assumption.
  - inversion H3; subst; constructor. apply H; [left; reflexivity|right; left; reflexivity|assumption].
Qed.

Definition sorter (q : list str -> list str) : Prop :=
  forall l, Forall (fun w => nul_free w) l -> Permutation l (q l) /\ Sorted (fun a b => (alpha_compare a b <= 0)%Z) (q l).

Lemma words_nul_free : forall x, nul_free x -> forall w, In w (words x) -> nul_free w.
Proof.
  intros x. remember (length x) as n eqn:En. revert x En.
  induction n as [n IH] using lt_wf_ind. intros x En H w Hw. rewrite words_fnt in Hw.
  destruct (find_next_token x) as [[v r]|] eqn:E; [|destruct Hw].
  pose proof (fnt_len _ _ _ E). destruct (fnt_some _ _ _ E) as [sp [_ [H2 _]]].
  rewrite H2 in H. apply nul_free_app in H. destruct H as [_ H]. apply nul_free_app in H. destruct H as [Ha Hb].
  destruct Hw as [<-|Hw]; [exact Ha|]. eapply IH; [|reflexivity|exact Hb|exact Hw]. lia.
Qed.

Lemma func_sort_spec : forall q x g, sorter q -> nul_free x ->
  exists l, func_sort q (x ++ c_nul :: c_nul :: g) = Ok (unwords l) /\
    (forall w, In w l <-> In w (words x)) /\ StronglySorted sort_lt l.
Proof.
  intros q x g Hq Hx. unfold func_sort.
  rewrite sort_tokens_ok; [|exact Hx|rewrite app_length; simpl; lia|rewrite app_length; simpl; lia].
  destruct (words x) as [|w0 ws0] eqn:Ew.
  - exists []. split; [reflexivity|]. split; [reflexivity|constructor].
  - rewrite <- Ew. destruct (Hq (words x)) as [P1 P2].
    { apply Forall_forall. apply words_nul_free. exact Hx. }
    assert (In1 : forall w, In w (q (words x)) <-> In w (words x)).
    { intros w. split; intros H; [eapply Permutation_in; [apply Permutation_sym|]|eapply Permutation_in]; eassumption. }
    assert (NF : forall w, In w (q (words x)) -> nul_free w).
    { intros w Hw. apply In1 in Hw. eapply words_nul_free; eassumption. }
    exists (dd (q (words x))). split; [|split].
    + rewrite sort_write_dd by exact NF. cbn [app]. rewrite unwords_removelast; [reflexivity|].
      intros Hd. apply dd_nil in Hd. assert (In w0 (q (words x))) by (apply In1; rewrite Ew; left; reflexivity).
      rewrite Hd in H. destruct H.
    + intros w. rewrite dd_in. apply In1.
    + apply dd_sorted. apply Sorted_StronglySorted.
      * intros a b c [H1|H1] [H2|H2]; subst; auto. left. eapply sort_lt_trans; eassumption.
      * eapply Sorted_local; [|exact P2]. intros a b Ha Hb H. cbv beta in H. apply alpha_spec in H; auto.
        -- apply In1 in Ha. eapply words_props; exact Ha.
        -- apply In1 in Hb. eapply words_props; exact Hb.
Qed.

(** A concrete sorter (insertion sort). *)
Fixpoint ins (w : str) (l : list str) : list str :=
  match l with [] => [w] | x :: l' => if (alpha_compare w x <=? 0)%Z then w :: l else x :: ins w l' end.
Definition isort (l : list str) : list str := fold_right ins [] l.

Lemma strcmp_opp : forall a b, strcmp b a = (- strcmp a b)%Z.
Proof.
  induction a as [|x a IH]; intros [|y b]; simpl; try lia.
  destruct (Ascii.eqb_spec x y); [subst; rewrite Ascii.eqb_refl; apply IH|].
  destruct (Ascii.eqb_spec y x); [congruence|lia].
Qed.
Lemma alpha_opp : forall a b, alpha_compare b a = (- alpha_compare a b)%Z.
Proof.
  intros a b. unfold alpha_compare.
  destruct (Ascii.eqb_spec (first_char a) (first_char b)) as [->|N].
  - rewrite Ascii.eqb_refl. apply strcmp_opp.
  - destruct (Ascii.eqb_spec (first_char b) (first_char a)); [congruence|lia].
Qed.

Lemma isort_sorter : sorter isort.
Proof.
  intros l _. split.
  - induction l as [|x l IH]; [constructor|]. simpl.
    assert (G : forall w l, Permutation (w :: l) (ins w l)).
    { intros w. induction l0 as [|y l0 IH0]; simpl; [reflexivity|].
      destruct (alpha_compare w y <=? 0)%Z; [reflexivity|].
      eapply perm_trans; [apply perm_swap|]. constructor. exact IH0. }
    eapply perm_trans; [|apply G]. constructor. exact IH.
  - induction l as [|x l IH]; [constructor|]. simpl. revert IH. generalize (isort l) as m.
    induction m as [|y m IHm]; intros Hs; simpl.
    + constructor; constructor.
    + destruct (Z.leb_spec (alpha_compare x y) 0).
      * constructor; [exact Hs|constructor; assumption].
      * inversion Hs; subst. constructor; [apply IHm; assumption|].
        assert (Hyx : (alpha_compare y x <= 0)%Z) by (rewrite alpha_opp; lia).
        destruct m as [|z m]; simpl; [constructor; exact Hyx|].
        destruct (alpha_compare x z <=? 0)%Z; constructor; [exact Hyx|].
        inversion H3; assumption.
Qed.

(** Strictly sorted lists with the same elements are equal: the result is determined. *)
Lemma sorted_unique : forall l1 l2, StronglySorted sort_lt l1 -> StronglySorted sort_lt l2 ->
  (forall w, In w l1 <-> In w l2) -> l1 = l2.
Proof.
  induction l1 as [|x l1 IH]; intros [|y l2] S1 S2 H; [reflexivity| | |].
  - exfalso. apply (H y). left. reflexivity.
  - exfalso. apply (H x). left. reflexivity.
  - apply StronglySorted_inv in S1. destruct S1 as [H2 H3]. apply StronglySorted_inv in S2. destruct S2 as [H5 H6].
    rewrite Forall_forall in H3, H6.
    assert (x = y).
    { destruct (proj1 (H x) (or_introl eq_refl)) as [E|E]; [congruence|].
      destruct (proj2 (H y) (or_introl eq_refl)) as [E'|E']; [congruence|].
      exfalso. eapply sort_lt_irrefl. eapply sort_lt_trans; [apply H6; exact E|apply H3; exact E']. }
    subst y. f_equal. apply IH; auto. intros w. split; intros Hw.
    + destruct (proj1 (H w) (or_intror Hw)) as [<-|E]; [|exact E]. exfalso. eapply sort_lt_irrefl. apply H3. exact Hw.
    + destruct (proj2 (H w) (or_intror Hw)) as [<-|E]; [|exact E]. exfalso. eapply sort_lt_irrefl. apply H6. exact Hw.
Qed.

(** ** dir, notdir, basename, suffix *)
Lemma scan_back_spec : forall stop w k, k <= length w ->
  match scan_back stop w k with
  | None => forall c, In c (firstn k w) -> stop c = false
  | Some i => i < k /\ stop (at_ w i) = true /\
              forall j, i < j < k -> stop (at_ w j) = false
  end.
Proof.
  intros stop w. induction k as [|k IH]; intros H; simpl scan_back.
  - intros c [].
  - destruct (stop (at_ w k)) eqn:E.
    + repeat split; auto. intros j Hj. lia.
    + specialize (IH ltac:(lia)). destruct (scan_back stop w k) as [i|].
      * destruct IH as [I1 [I2 I3]]. repeat split; auto. intros j Hj.
        destruct (Nat.eq_dec j k) as [->|]; [exact E|apply I3; lia].
      * intros c Hc. assert (Es : firstn (S k) w = firstn k w ++ [at_ w k]).
        { clear -H. unfold at_. revert k H. induction w as [|a w IH]; intros k H; simpl in *; [lia|].
          destruct k; [reflexivity|]. cbn [firstn nth app]. f_equal. apply IH. lia. }
        rewrite Es in Hc. apply in_app_iff in Hc. destruct Hc as [Hc|[<-|[]]]; auto.
Qed.

Lemma scan_back_split : forall stop w,
  match scan_back stop w (length w) with
  | None => forall c, In c w -> stop c = false
  | Some i => w = firstn i w ++ at_ w i :: skipn (S i) w /\ stop (at_ w i) = true /\
              firstn (S i) w = firstn i w ++ [at_ w i] /\
              skipn i w = at_ w i :: skipn (S i) w /\
              forall c, In c (skipn (S i) w) -> stop c = false
  end.
Proof.
  intros stop w. pose proof (scan_back_spec stop w (length w) (Nat.le_refl _)) as H.
  destruct (scan_back stop w (length w)) as [i|].
  - destruct H as [H1 [H2 H3]].
    assert (Es : firstn (S i) w = firstn i w ++ [at_ w i]).
    { clear -H1. unfold at_. revert i H1. induction w as [|a w IH]; intros i H; simpl in *; [lia|].
      destruct i; [reflexivity|]. cbn [firstn nth app]. f_equal. apply IH. lia. }
    assert (Ew : w = firstn i w ++ at_ w i :: skipn (S i) w).
    { rewrite <- (firstn_skipn (S i) w) at 1. rewrite Es, <- app_assoc. reflexivity. }
    split; [exact Ew|]. split; [exact H2|]. split; [exact Es|]. split.
    + assert (Li : length (firstn i w) = i) by (rewrite firstn_length; lia).
      rewrite Ew at 1. rewrite <- Li at 1. apply skipn_app_exact.
    + intros c Hc. apply In_nth with (d := c_nul) in Hc. destruct Hc as [j [Hj <-]].
      rewrite skipn_length in Hj. fold (at_ (skipn (S i) w) j). rewrite at_skipn. apply H3. lia.
  - rewrite firstn_all in H. exact H.
Qed.

Definition dirs (w : str) : str * str :=
  match scan_back is_dirsep w (length w) with
  | Some p => (firstn (S p) w, skipn (S p) w)
  | None => ([], w)
  end.
Definition suffs (w : str) : str * str :=
  match scan_back is_dirsep_dot w (length w) with
  | Some p => if at_ w p =?c c_dot then (firstn p w, skipn p w) else (w, [])
  | None => (w, [])
  end.

Lemma dirs_spec : forall w, dir_split (dirs w) /\ fst (dirs w) ++ snd (dirs w) = w.
Proof.
  intros w. unfold dirs, dir_split. pose proof (scan_back_split is_dirsep w) as H.
  destruct (scan_back is_dirsep w (length w)) as [p|]; cbn [fst snd].
  - destruct H as [H1 [H2 [H3 [H4 H5]]]]. split; [split|apply firstn_skipn].
    + intros Hc. apply H5 in Hc. discriminate.
    + right. exists (firstn p w). rewrite H3. unfold is_dirsep in H2. apply eqc_true in H2. rewrite H2. reflexivity.
  - split; [split|reflexivity]; [|left; reflexivity]. intros Hc. apply H in Hc. discriminate.
Qed.

Lemma suffs_spec : forall w, suffix_split (suffs w) /\ fst (suffs w) ++ snd (suffs w) = w.
Proof.
  intros w. unfold suffs, suffix_split. pose proof (scan_back_split is_dirsep_dot w) as H.
  destruct (scan_back is_dirsep_dot w (length w)) as [p|].
  - destruct H as [H1 [H2 [H3 [H4 H5]]]].
    assert (Nd : ~ In c_dot (skipn (S p) w)) by (intros Hc; apply H5 in Hc; discriminate).
    assert (Ns : ~ In c_slash (skipn (S p) w)) by (intros Hc; apply H5 in Hc; discriminate).
    destruct (at_ w p =?c c_dot) eqn:E; cbn [fst snd].
    + apply eqc_true in E. split; [|apply firstn_skipn]. left. exists (skipn (S p) w).
      rewrite H4, E. auto.
    + split; [|apply app_nil_r]. right. split; [reflexivity|]. intros a b Eab.
      unfold is_dirsep_dot in H2. rewrite E, orb_false_r in H2. apply eqc_true in H2. rewrite H2 in H1.
      rewrite H1 in Eab. remember (skipn (S p) w) as z eqn:Ez. destruct (app_split2 _ _ _ _ Eab) as [[u [U1 U2]]|[u [U1 U2]]].
      * destruct u as [|c u]; [discriminate|]. cbn [app] in U2. injection U2 as U2 U3.
        exfalso. apply Nd. rewrite U3. apply in_or_app. right. left. reflexivity.
      * destruct u as [|c u]; cbn [app] in U2; [discriminate|].
        injection U2 as U2 U3. rewrite U3. apply in_or_app. right. left. reflexivity.
  - cbn [fst snd]. split; [|apply app_nil_r]. right. split; [reflexivity|]. intros a b ->.
    exfalso. assert (is_dirsep_dot c_dot = false) by (apply H; apply in_or_app; right; left; reflexivity).
    discriminate.
Qed.

Lemma func_dir_spec : forall a, func_dir a =
  Some (unwords (map (fun p => match fst p with [] => [c_dot; c_slash] | d => d end) (map dirs (words a)))).
Proof.
  intros a. unfold func_dir. rewrite each_emit with
    (g := fun w => Some (match fst (dirs w) with [] => [c_dot; c_slash] | d => d end)).
  - rewrite somes_map_Some, map_map. reflexivity.
  - intros o w. unfold dir_word, emit, dirs. pose proof (scan_back_split is_dirsep w) as H.
    destruct (scan_back is_dirsep w (length w)) as [p|]; [|reflexivity].
    destruct H as [_ [_ [H3 _]]]. cbn [fst]. rewrite H3. destruct (firstn p w); reflexivity.
Qed.
Lemma func_notdir_spec : forall a, func_notdir a = Some (unwords (map snd (map dirs (words a)))).
Proof.
  intros a. unfold func_notdir. rewrite each_emit with (g := fun w => Some (snd (dirs w))).
  - rewrite somes_map_Some, map_map. reflexivity.
  - intros o w. unfold notdir_word, emit, dirs.
    destruct (scan_back is_dirsep w (length w)) as [p|]; reflexivity.
Qed.
Lemma func_basename_spec : forall a, func_basename a = Some (unwords (map fst (map suffs (words a)))).
Proof.
  intros a. unfold func_basename. rewrite each_emit with (g := fun w => Some (fst (suffs w))).
  - rewrite somes_map_Some, map_map. reflexivity.
  - intros o w. unfold basename_word, emit, suffs.
    destruct (scan_back is_dirsep_dot w (length w)) as [p|]; [|reflexivity].
    destruct (at_ w p =?c c_dot); reflexivity.
Qed.
Lemma func_suffix_spec : forall a, func_suffix a =
  Some (unwords (filter nonempty (map snd (map suffs (words a))))).
Proof.
  intros a. unfold func_suffix. rewrite each_emit with
    (g := fun w => if nonempty (snd (suffs w)) then Some (snd (suffs w)) else None).
  - f_equal. f_equal. rewrite map_map. generalize (words a) as l. induction l as [|w l IH]; [reflexivity|].
    cbn [map somes filter]. destruct (nonempty (snd (suffs w))); cbn [somes]; rewrite IH; reflexivity.
  - intros o w. unfold suffix_word, emit, suffs. pose proof (scan_back_split is_dirsep_dot w) as H.
    destruct (scan_back is_dirsep_dot w (length w)) as [p|]; [|reflexivity].
    destruct H as [_ [_ [_ [H4 _]]]].
    destruct (at_ w p =?c c_dot); [|reflexivity]. cbn [snd]. rewrite H4. reflexivity.
Qed.

Lemma dir_split_unique : forall p q, dir_split p -> dir_split q ->
  fst p ++ snd p = fst q ++ snd q -> p = q.
Proof.
  assert (G : forall d n d' n', ~ In c_slash n -> (d' = [] \/ exists e, d' = e ++ [c_slash]) ->
    forall u, n = u ++ n' -> d' = d ++ u -> u = []).
  { intros d n d' n' Hn Hd u E1 E2. destruct Hd as [->|[e ->]].
    - symmetry in E2. apply app_eq_nil in E2. tauto.
    - destruct u as [|c u _] using rev_ind; [reflexivity|]. exfalso. rewrite app_assoc in E2.
      apply app_inj_tail in E2. destruct E2 as [_ <-]. apply Hn. rewrite E1.
      apply in_or_app. left. apply in_or_app. right. left. reflexivity. }
  intros [d n] [d' n'] [Hn Hd] [Hn' Hd'] E. cbn [fst snd] in *.
  destruct (app_split2 _ _ _ _ E) as [[u [U1 U2]]|[u [U1 U2]]].
  - assert (u = []) by (eapply (G d n d' n'); eauto). subst u. simpl in *. rewrite app_nil_r in U1. congruence.
  - assert (u = []) by (eapply (G d' n' d n); eauto). subst u. simpl in *. rewrite app_nil_r in U1. congruence.
Qed.

Lemma last_dot_unique : forall a b s t : str, ~ In c_dot s -> ~ In c_dot t ->
  a ++ c_dot :: s = b ++ c_dot :: t -> a = b /\ s = t.
Proof.
  intros a b s t Hs Ht E. destruct (app_split2 _ _ _ _ E) as [[u [U1 U2]]|[u [U1 U2]]].
  - destruct u as [|c u]; simpl in U2; [rewrite app_nil_r in U1; split; congruence|].
    injection U2 as U2 U3. exfalso. apply Hs. rewrite U3. apply in_or_app. right. left. reflexivity.
  - destruct u as [|c u]; simpl in U2; [rewrite app_nil_r in U1; split; congruence|].
    injection U2 as U2 U3. exfalso. apply Ht. rewrite U3. apply in_or_app. right. left. reflexivity.
Qed.

Lemma suffix_split_unique : forall p q, suffix_split p -> suffix_split q ->
  fst p ++ snd p = fst q ++ snd q -> p = q.
Proof.
  intros [b s] [b' s'] H H' E. unfold suffix_split in *. cbn [fst snd] in *.
  destruct H as [[t [-> [Hd Hs]]]|[-> Hx]]; destruct H' as [[t' [-> [Hd' Hs']]]|[-> Hx']].
  - destruct (last_dot_unique _ _ _ _ Hd Hd' E) as [-> ->]. reflexivity.
  - rewrite app_nil_r in E. exfalso. apply Hs. eapply Hx'. symmetry. exact E.
  - rewrite app_nil_r in E. exfalso. apply Hs'. eapply Hx. exact E.
  - rewrite !app_nil_r in E. congruence.
Qed.

(** ** addprefix, addsuffix, join, findstring *)
Lemma func_addprefix_spec : forall p a, func_addprefix p a = Some (unwords (map (fun w => p ++ w) (words a))).
Proof.
  intros p a. unfold func_addprefix. rewrite each_emit with (g := fun w => Some (p ++ w)).
  - rewrite somes_map_Some. reflexivity.
  - intros o w. unfold emit, put. simpl. rewrite app_assoc. reflexivity.
Qed.
Lemma func_addsuffix_spec : forall s a, func_addsuffix s a = Some (unwords (map (fun w => w ++ s) (words a))).
Proof.
  intros s a. unfold func_addsuffix. rewrite each_emit with (g := fun w => Some (w ++ s)).
  - rewrite somes_map_Some. reflexivity.
  - intros o w. unfold emit, put. simpl. rewrite app_assoc. reflexivity.
Qed.

Lemma zip_app_nil_r : forall l, zip_app l [] = l. Proof. intros [|x l]; reflexivity. Qed.

Lemma join_loop_spec : forall fuel l1 l2 o, length l1 + length l2 < fuel ->
  join_loop fuel o l1 l2 = Some (fold_left (emit (fun w => Some w)) (zip_app (words l1) (words l2)) o).
Proof.
  induction fuel as [|k IH]; intros l1 l2 o H; [lia|]. cbn [join_loop].
  rewrite (words_fnt l1), (words_fnt l2).
  destruct (find_next_token l1) as [[w1 r1]|] eqn:E1; destruct (find_next_token l2) as [[w2 r2]|] eqn:E2.
  - pose proof (fnt_len _ _ _ E1). pose proof (fnt_len _ _ _ E2). rewrite IH by lia.
    cbn [zip_app fold_left]. do 2 f_equal. unfold emit, put. cbn [otext doneany]. rewrite app_assoc. reflexivity.
  - pose proof (fnt_len _ _ _ E1). rewrite IH by lia. rewrite (words_fnt l2), E2, !zip_app_nil_r. reflexivity.
  - pose proof (fnt_len _ _ _ E2). rewrite IH by lia. rewrite (words_fnt l1), E1. reflexivity.
  - reflexivity.
Qed.

Lemma func_join_spec : forall a b, func_join a b = Some (unwords (zip_app (words a) (words b))).
Proof.
  intros a b. unfold func_join. rewrite join_loop_spec by lia. simpl option_map. rewrite kill_emit.
  rewrite (somes_map_Some (fun w => w)), map_id. reflexivity.
Qed.

Lemma func_findstring_spec : forall f a,
  (occurs f a -> func_findstring f a = f) /\ (~ occurs f a -> func_findstring f a = []).
Proof.
  intros f a. unfold func_findstring. split; intros H.
  - destruct (strstr_complete _ _ H) as [b [q ->]]. reflexivity.
  - destruct (strstr a f) as [[b r]|] eqn:E; [|reflexivity]. exfalso. apply H.
    destruct (strstr_some _ _ _ _ E) as [E1 [[q E2] _]]. exists b, q. congruence.
Qed.
