(** Proofs about archives. *)
From Verif Require Import Base M_Text M_Line M_Implicit M_Auto S_Text M_Ar S_Ar.
From Coq Require Import ZArith Lia.
Open Scope string_scope.
Open Scope list_scope.
Open Scope nat_scope.

(** ** Numbers *)
Lemma dig_true c : is_dig c -> isdigit c = true.
Proof. unfold is_dig, isdigit. intros [A B]. apply andb_true_iff. split; apply Nat.leb_le; assumption. Qed.
Lemma digits_fold ds r : Forall is_dig ds -> (forall c q, r = c :: q -> isdigit c = false) -> forall acc,
  digits_val acc (ds ++ r) = fold_left (fun a c => a * 10 + (Z.of_nat (nat_of_ascii c) - 48))%Z ds acc.
Proof.
  intros F NR. induction F as [|c ds D F IH]; intros acc; cbn [app].
  - destruct r as [|c q]; cbn [digits_val fold_left]; [reflexivity|]. rewrite (NR c q eq_refl). reflexivity.
  - cbn [digits_val fold_left]. rewrite (dig_true c D). apply IH.
Qed.
Lemma fold_bound ds : Forall is_dig ds -> forall acc, (0 <= acc)%Z ->
  (0 <= fold_left (fun a c => a * 10 + (Z.of_nat (nat_of_ascii c) - 48)) ds acc < (acc + 1) * 10 ^ Z.of_nat (length ds))%Z.
Proof.
  intros F. induction F as [|c ds D F IH]; intros acc A; cbn [fold_left length].
  - change (10 ^ Z.of_nat 0)%Z with 1%Z. lia.
  - unfold is_dig in D. specialize (IH (acc * 10 + (Z.of_nat (nat_of_ascii c) - 48))%Z ltac:(lia)).
    rewrite Nat2Z.inj_succ, Z.pow_succ_r by lia. split; [lia|]. eapply Z.lt_le_trans; [apply IH|].
    rewrite Z.mul_assoc. apply Z.mul_le_mono_nonneg_r; [apply Z.pow_nonneg; lia|lia].
Qed.
Lemma dec_bound ds : Forall is_dig ds -> (0 <= dec_value ds < 10 ^ Z.of_nat (length ds))%Z.
Proof. intros F. pose proof (fold_bound ds F 0%Z ltac:(lia)) as B. unfold dec_value. lia. Qed.
Lemma dig_not_space c : is_dig c -> isspace c = false /\ c <> c_minus /\ c <> c_plus.
Proof.
  unfold is_dig. intros D. split; [|split; intros ->; vm_compute in D; lia].
  destruct (isspace c) eqn:E; [|reflexivity]. exfalso. unfold isspace, isblank in E. rewrite !orb_true_iff in E.
  repeat match goal with H : _ \/ _ |- _ => destruct H end; match goal with H : (_ =?c _) = true |- _ => apply eqc_true in H; subst c; vm_compute in D; lia end.
Qed.
Lemma atol_number s z r : number s z -> length s <= 18 -> (forall c q, r = c :: q -> isdigit c = false) -> atol (s ++ r) = z.
Proof.
  intros (NE & F & ->) L NR. unfold atol. destruct s as [|c s]; [congruence|]. inversion F as [|? ? D F']; subst. destruct (dig_not_space c D) as (S1 & S2 & S3).
  cbn [app skip_space]. rewrite S1.
  assert (E1 : (c =?c c_minus) = false) by (destruct (c =?c c_minus) eqn:E; [apply eqc_true in E; congruence|reflexivity]).
  assert (E2 : (c =?c c_plus) = false) by (destruct (c =?c c_plus) eqn:E; [apply eqc_true in E; congruence|reflexivity]).
  rewrite E1, E2. change (c :: s ++ r) with ((c :: s) ++ r). rewrite (digits_fold (c :: s) r F NR). fold (dec_value (c :: s)).
  pose proof (dec_bound (c :: s) F) as B.
  assert (B2 : (10 ^ Z.of_nat (length (c :: s)) <= 10 ^ 18)%Z) by (apply Z.pow_le_mono_r; lia).
  change (10 ^ 18)%Z with 1000000000000000000%Z in B2. change (2 ^ 63)%Z with 9223372036854775808%Z. lia.
Qed.
Lemma atoi_number s z r : number s z -> length s <= 18 -> (forall c q, r = c :: q -> isdigit c = false) -> (z <= INT_MAX)%Z -> atoi (s ++ r) = z.
Proof.
  intros N L NR B. unfold atoi. rewrite (atol_number s z r N L NR). unfold to_int. destruct N as (_ & F & E). pose proof (dec_bound s F) as D. rewrite <- E in D.
  unfold INT_MAX in B. rewrite Z.mod_small; [lia|]. change (2 ^ 31)%Z with 2147483648%Z. change (2 ^ 32)%Z with 4294967296%Z. lia.
Qed.

(** ** Fields *)
Lemma rev_repeat {X} (x : X) n : rev (repeat x n) = repeat x n.
Proof. induction n as [|n IH]; [reflexivity|]. cbn [repeat rev]. rewrite IH. clear. induction n as [|n IH]; [reflexivity|]. cbn [repeat app]. rewrite IH. reflexivity. Qed.
Lemma drop_repeat n s : drop_sp (repeat c_sp n ++ s) = drop_sp s.
Proof. induction n as [|n IH]; [reflexivity|]. cbn [repeat app drop_sp]. rewrite eqc_refl. exact IH. Qed.
Lemma strip_padded w s t : padded w s t -> (forall r, s <> r ++ [c_sp]) -> strip_sp t = s.
Proof.
  intros (_ & n & ->) NB. unfold strip_sp. rewrite rev_app_distr, rev_repeat, drop_repeat.
  destruct s as [|c s] using rev_ind; [reflexivity|]. rewrite rev_app_distr. cbn [rev app drop_sp].
  assert (E : (c =?c c_sp) = false) by (destruct (c =?c c_sp) eqn:E; [apply eqc_true in E; subst c; exfalso; exact (NB s eq_refl)|reflexivity]).
  rewrite E. cbn [rev]. rewrite rev_involutive. reflexivity.
Qed.
Lemma nul_free s : ~ In c_nul s -> upto_nul s = s.
Proof.
  induction s as [|c s IH]; intros N; [reflexivity|]. cbn [upto_nul].
  assert (E : (c =?c c_nul) = false) by (destruct (c =?c c_nul) eqn:E; [apply eqc_true in E; subst c; exfalso; apply N; left; reflexivity|reflexivity]).
  rewrite E, IH; [reflexivity|]. intros I. apply N. right. exact I.
Qed.
Lemma nul_app s r : ~ In c_nul s -> upto_nul (s ++ c_nul :: r) = s.
Proof.
  induction s as [|c s IH]; intros N; cbn [app upto_nul]; [rewrite eqc_refl; reflexivity|].
  assert (E : (c =?c c_nul) = false) by (destruct (c =?c c_nul) eqn:E; [apply eqc_true in E; subst c; exfalso; apply N; left; reflexivity|reflexivity]).
  rewrite E, IH; [reflexivity|]. intros I. apply N. right. exact I.
Qed.

(** ** The table of names *)
Lemma munge_length s : forall out t, munge out s = Some t -> length t = length out + length s.
Proof.
  induction s as [|c s IH]; intros out t H; cbn [munge] in H.
  - injection H as <-. rewrite rev_length. cbn. lia.
  - destruct (c =?c c_nl).
    + destruct out as [|d o]; [discriminate|]. rewrite (IH _ _ H). cbn [length]. lia.
    + rewrite (IH _ _ H). cbn [length]. lia.
Qed.
Lemma munge_keep K s : forall q t, munge (q ++ K) s = Some t -> q <> [] \/ (forall r, K <> c_slash :: r) -> exists u, t = rev K ++ u.
Proof.
  induction s as [|c s IH]; intros q t H G; cbn [munge] in H.
  - injection H as <-. exists (rev q). apply rev_app_distr.
  - destruct (c =?c c_nl).
    + destruct q as [|d q]; cbn [app] in H.
      * destruct K as [|d o]; [discriminate|]. destruct G as [G|G]; [congruence|].
        assert (E : (d =?c c_slash) = false) by (destruct (d =?c c_slash) eqn:E; [apply eqc_true in E; subst d; exfalso; exact (G o eq_refl)|reflexivity]). rewrite E in H.
        apply (IH [c_nul] t H). left. discriminate.
      * apply (IH (c_nul :: (if d =?c c_slash then c_nul else d) :: q) t H). left. discriminate.
    + apply (IH (c :: q) t H). left. discriminate.
Qed.
Lemma munge_plain n : forall out s, ~ In c_nl n -> munge out (n ++ s) = munge (rev n ++ out) s.
Proof.
  induction n as [|c n IH]; intros out s N; [reflexivity|]. cbn [app munge].
  assert (E : (c =?c c_nl) = false) by (destruct (c =?c c_nl) eqn:E; [apply eqc_true in E; subst c; exfalso; apply N; left; reflexivity|reflexivity]).
  rewrite E, IH; [|intros I; apply N; right; exact I]. cbn [rev]. rewrite <- app_assoc. reflexivity.
Qed.
Lemma munge_split a : forall out s t, munge out (a ++ s) = Some t -> exists out', length out' = length out + length a /\ munge out' s = Some t.
Proof.
  induction a as [|c a IH]; intros out s t H; cbn [app munge] in H; [exists out; split; [cbn; lia|exact H]|].
  destruct (c =?c c_nl).
  - destruct out as [|d o]; [discriminate|]. destruct (IH _ _ _ H) as (out' & L & M). exists out'. split; [cbn [length] in *; lia|exact M].
  - destruct (IH _ _ _ H) as (out' & L & M). exists out'. split; [cbn [length] in *; lia|exact M].
Qed.
Lemma munge_name a n slash b t : munge [] (a ++ n ++ slash ++ c_nl :: b) = Some t -> n <> [] -> (forall c, In c n -> c <> c_nul /\ c <> c_nl) ->
  slash = [c_slash] \/ slash = [] /\ (forall r, n <> r ++ [c_slash]) -> upto_nul (skipn (length a) t) = n.
Proof.
  intros M NE NC SL. destruct (munge_split a _ _ _ M) as (out & L & M1). cbn [length] in L.
  rewrite munge_plain in M1 by (intros I; destruct (NC _ I); congruence).
  assert (K : exists u, t = rev out ++ n ++ c_nul :: u).
  { destruct SL as [-> |[-> NS]]; cbn [app munge] in M1.
    - change (c_slash =?c c_nl) with false in M1. cbn [munge] in M1. rewrite !eqc_refl in M1.
      destruct (munge_keep (c_nul :: rev n ++ out) b [c_nul] t M1) as (u & ->); [left; discriminate|].
      exists u. cbn [rev]. rewrite rev_app_distr, rev_involutive, <- !app_assoc. reflexivity.
    - rewrite eqc_refl in M1. destruct n as [|c n] using rev_ind; [congruence|]. rewrite rev_app_distr in M1. cbn [rev app] in M1.
      assert (E : (c =?c c_slash) = false) by (destruct (c =?c c_slash) eqn:E; [apply eqc_true in E; subst c; exfalso; exact (NS n eq_refl)|reflexivity]). rewrite E in M1.
      destruct (munge_keep (c_nul :: c :: rev n ++ out) b [] t M1) as (u & ->); [right; discriminate|].
      exists u. cbn [rev]. rewrite rev_app_distr, rev_involutive, <- !app_assoc. cbn [app]. reflexivity. }
  destruct K as (u & ->). replace (length a) with (length (rev out)) by (rewrite rev_length; lia).
  rewrite skipn_app, skipn_all, Nat.sub_diag. cbn [app skipn]. apply nul_app. intros I. destruct (NC _ I). congruence.
Qed.
Lemma munge_some t : (forall r, t <> c_nl :: r) -> exists t', munge [] t = Some t'.
Proof.
  assert (G : forall s out, out <> [] -> exists t', munge out s = Some t').
  { induction s as [|c s IH]; intros out NE; cbn [munge]; [eexists; reflexivity|]. destruct (c =?c c_nl); [|apply IH; discriminate]. destruct out as [|d o]; [congruence|]. apply IH. discriminate. }
  intros N. destruct t as [|c s]; [eexists; reflexivity|]. cbn [munge]. destruct (c =?c c_nl) eqn:E; [apply eqc_true in E; subst c; exfalso; exact (N s eq_refl)|]. apply G. discriminate.
Qed.

(** ** The name of a member *)
Definition tables (ts tm : option str) : Prop :=
  match ts, tm with
  | None, None => True
  | Some t, Some t' => munge [] t = Some t' /\ (Z.of_nat (length t) <= INT_MAX)%Z
  | _, _ => False
  end.
Lemma last_slash n : starts c_slash (rev (n ++ [c_slash])) = true /\ removelast (n ++ [c_slash]) = n.
Proof. split; [rewrite rev_app_distr; reflexivity|apply removelast_last]. Qed.
Lemma no_last_slash n : (forall r, n <> r ++ [c_slash]) -> starts c_slash (rev n) = false.
Proof.
  intros N. destruct n as [|c n] using rev_ind; [reflexivity|]. rewrite rev_app_distr. cbn [rev app starts].
  destruct (c =?c c_slash) eqn:E; [apply eqc_true in E; subst c; exfalso; exact (N n eq_refl)|reflexivity].
Qed.
Lemma starts_false c n : (forall r, n <> c :: r) -> starts c n = false.
Proof. intros N. destruct n as [|d n]; [reflexivity|]. cbn [starts]. destruct (d =?c c) eqn:E; [apply eqc_true in E; subst d; exfalso; exact (N n eq_refl)|reflexivity]. Qed.
Lemma not_hash n : ~ In c_slash n -> prefixb (s2l "#1/") n = false.
Proof.
  intros N. destruct (prefixb (s2l "#1/") n) eqn:E; [|reflexivity]. exfalso. apply N.
  destruct n as [|a [|b [|c n]]]; cbn [prefixb s2l list_ascii_of_string] in E; rewrite ?andb_false_r in E; try discriminate.
  rewrite !andb_true_iff in E. destruct E as (_ & _ & E & _). apply eqc_true in E. right. right. left. symmetry. exact E.
Qed.
Lemma neq_false a b : a <> b -> str_eqb a b = false.
Proof. intros N. destruct (str_eqb a b) eqn:E; [apply str_eqb_eq in E; congruence|reflexivity]. Qed.
Lemma dig_chars s c : Forall is_dig s -> In c s -> c <> c_slash /\ c <> c_sp /\ c <> c_nul.
Proof. rewrite Forall_forall. intros F I. specialize (F c I). unfold is_dig in F. split; [|split]; intros ->; vm_compute in F; lia. Qed.
Lemma digs_end s : s <> [] -> Forall is_dig s -> forall p x r, x = c_slash \/ x = c_sp -> p ++ s <> r ++ [x].
Proof.
  intros NE F p x r X E. destruct (exists_last NE) as (l & d & ->). rewrite app_assoc in E. apply app_inj_tail in E. destruct E as [_ ->].
  destruct (dig_chars _ x F ltac:(apply in_or_app; right; left; reflexivity)) as (A & B & _). destruct X; congruence.
Qed.

Lemma name_of ts tm stack data id n short need ts' more : kind ts data id n short need ts' -> tables ts tm -> (need <= stack)%Z ->
  exists tab stack1 tm', member_name stack tm id (data ++ more) = inr (n, negb short, tab, stack1) /\
    (if (tab : bool) then read_table stack1 (Z.of_nat (length data)) (data ++ more) else inr (stack1, tm)) = inr ((stack - need)%Z, tm') /\ tables ts' tm'.
Proof.
  intros K T NS. destruct K as [n id NE NC NB NA P|n id NE NC NB NT P|a n slash b s id TS NE NC SL N P|n z rest s id DA NE NC N LT P|id P|n id NN P ND LD].
  - exists false, stack, tm. unfold member_name. rewrite (strip_padded 16 _ _ P) by (intros r E; apply app_inj_tail in E; destruct E; discriminate).
    destruct (last_slash n) as [LS RL]. rewrite LS, RL.
    assert (NS' : ~ In c_slash n) by (intros I; destruct (NC _ I); congruence).
    assert (NN : ~ In c_nul n) by (intros I; destruct (NC _ I); congruence).
    assert (NF : ~ In c_nul (n ++ [c_slash])) by (intros I; apply in_app_or in I; destruct I as [I|[I|[]]]; [exact (NN I)|discriminate]).
    assert (IT : is_table (n ++ [c_slash]) = false).
    { unfold is_table. rewrite (nul_free _ NF). rewrite !neq_false; [reflexivity| |]; intros E.
      - change (s2l "ARFILENAMES/") with (s2l "ARFILENAMES" ++ [c_slash]) in E. apply app_inj_tail in E. destruct E as [E _]. exact (NA E).
      - change (s2l "//") with ([c_slash] ++ [c_slash]) in E. apply app_inj_tail in E. destruct E as [E _]. subst n. apply NS'. left. reflexivity. }
    rewrite IT, (nul_free _ NN), (starts_false c_sp n NB), (starts_false c_slash n) by (intros r ->; apply NS'; left; reflexivity). cbn [orb andb negb].
    rewrite (not_hash n NS'). rewrite Z.sub_0_r. split; [reflexivity|]. split; [reflexivity|exact T].
  - exists false, stack, tm. unfold member_name. rewrite (strip_padded 16 _ _ P NT).
    assert (NS' : ~ In c_slash n) by (intros I; destruct (NC _ I); congruence).
    assert (NN : ~ In c_nul n) by (intros I; destruct (NC _ I); congruence).
    rewrite no_last_slash by (intros r ->; apply NS'; apply in_or_app; right; left; reflexivity).
    assert (IT : is_table n = false).
    { unfold is_table. rewrite (nul_free _ NN). rewrite !neq_false; [reflexivity| |]; intros E; apply NS'; rewrite E; cbn; tauto. }
    rewrite IT, (nul_free _ NN), (starts_false c_sp n NB), (starts_false c_slash n) by (intros r ->; apply NS'; left; reflexivity). cbn [orb andb negb].
    rewrite (not_hash n NS'). rewrite Z.sub_0_r. split; [reflexivity|]. split; [reflexivity|exact T].
  - subst ts. destruct tm as [t'|]; [|destruct T]. destruct T as [M LB]. exists false, stack, (Some t'). unfold member_name.
    assert (FS : s <> [] /\ Forall is_dig s) by (destruct N as (A & B & _); auto). destruct FS as [SNE FS].
    rewrite (strip_padded 16 _ _ P) by (intros r; exact (digs_end s SNE FS [c_slash] c_sp r (or_intror eq_refl))).
    rewrite no_last_slash by (intros r; exact (digs_end s SNE FS [c_slash] c_slash r (or_introl eq_refl))).
    assert (NN : ~ In c_nul (c_slash :: s)) by (intros [I|I]; [discriminate|destruct (dig_chars s _ FS I) as (_ & _ & X); congruence]).
    assert (IT : is_table (c_slash :: s) = false).
    { unfold is_table. rewrite (nul_free _ NN). rewrite !neq_false; [reflexivity| |]; intros E; [discriminate|]. injection E as E. destruct (dig_chars s c_slash FS) as (X & _); [rewrite E; left; reflexivity|congruence]. }
    rewrite IT, (nul_free _ NN). cbn [negb andb starts orb tl]. rewrite eqc_refl, orb_true_r.
    assert (LS : length s <= 18) by (destruct P as (L16 & k & E); rewrite E in L16; rewrite app_length in L16; cbn [length] in L16; lia).
    assert (LA : (Z.of_nat (length a) < Z.of_nat (length t'))%Z).
    { rewrite (munge_length _ _ _ M). rewrite !app_length. cbn [length]. lia. }
    assert (LT : length t' = length (a ++ n ++ slash ++ c_nl :: b)) by (rewrite (munge_length _ _ _ M); reflexivity).
    rewrite <- (app_nil_r s). rewrite (atoi_number s _ [] N LS ltac:(discriminate)) by lia.
    replace ((Z.of_nat (length a) <? 0)%Z) with false by (symmetry; apply Z.ltb_ge; lia).
    replace ((Z.of_nat (length t') <=? Z.of_nat (length a))%Z) with false by (symmetry; apply Z.leb_gt; lia). cbn [orb].
    rewrite Nat2Z.id, (munge_name a n slash b t' M NE NC SL). destruct n as [|c n]; [congruence|]. rewrite Z.sub_0_r. split; [reflexivity|]. split; [reflexivity|]. split; assumption.
  - exists false, (stack - (Z.of_nat (length n + z) + 1))%Z, tm. unfold member_name.
    assert (FS : s <> [] /\ Forall is_dig s) by (destruct N as (A & B & _); auto). destruct FS as [SNE FS].
    rewrite (strip_padded 16 _ _ P) by (intros r; exact (digs_end s SNE FS (s2l "#1/") c_sp r (or_intror eq_refl))).
    rewrite no_last_slash by (intros r; exact (digs_end s SNE FS (s2l "#1/") c_slash r (or_introl eq_refl))).
    assert (NN : ~ In c_nul (s2l "#1/" ++ s)) by (intros I; apply in_app_or in I; destruct I as [I|I]; [cbn in I; intuition discriminate|destruct (dig_chars s _ FS I) as (_ & _ & X); congruence]).
    assert (IT : is_table (s2l "#1/" ++ s) = false) by (unfold is_table; rewrite (nul_free _ NN); rewrite !neq_false; [reflexivity|discriminate|discriminate]).
    rewrite IT, (nul_free _ NN).
    assert (LS : length s <= 18) by (destruct P as (L16 & k & E); rewrite E in L16; rewrite !app_length in L16; cbn [length] in L16; lia).
    change (starts c_sp (s2l "#1/" ++ s)) with false. change (starts c_slash (s2l "#1/" ++ s)) with false. cbn [orb andb negb].
    change (prefixb (s2l "#1/") (s2l "#1/" ++ s)) with (prefixb [] s). cbn [prefixb]. change (skipn 3 (s2l "#1/" ++ s)) with s.
    rewrite <- (app_nil_r s), (atoi_number s _ [] N LS ltac:(discriminate)) by (unfold max_int in LT; unfold INT_MAX; lia).
    assert (NP : 1 <= length n) by (destruct n; [congruence|cbn [length]; lia]).
    replace ((Z.of_nat (length n + z) <? 1)%Z) with false by (symmetry; apply Z.ltb_ge; lia).
    replace ((Z.of_nat (length n + z) =? INT_MAX)%Z) with false by (symmetry; apply Z.eqb_neq; unfold max_int in LT; unfold INT_MAX; lia).
    replace ((stack <? Z.of_nat (length n + z) + 1)%Z) with false by (symmetry; apply Z.ltb_ge; lia).
    rewrite Nat2Z.id. subst data.
    assert (FN : firstn (length n + z) ((n ++ repeat c_nul z ++ rest) ++ more) = n ++ repeat c_nul z).
    { rewrite <- !app_assoc, app_assoc. rewrite firstn_app, app_length, repeat_length, Nat.sub_diag. cbn [firstn]. rewrite app_nil_r. apply firstn_all2. rewrite app_length, repeat_length. lia. }
    rewrite FN, app_length, repeat_length, Z.eqb_refl.
    assert (UN : upto_nul (n ++ repeat c_nul z) = n) by (destruct z as [|z]; [cbn [repeat]; rewrite app_nil_r; apply nul_free; exact NC|apply nul_app; exact NC]).
    rewrite UN. split; [reflexivity|]. split; [reflexivity|exact T].
  - exists false, stack, tm. unfold member_name. rewrite (strip_padded 16 _ _ P) by (intros r E; destruct r as [|x [|y r]]; discriminate).
    change (is_table [c_slash]) with false. change (starts c_slash (rev [c_slash])) with true. cbn [removelast upto_nul starts orb andb negb]. rewrite Z.sub_0_r. split; [reflexivity|]. split; [reflexivity|exact T].
  - destruct (munge_some data ND) as (t' & M). exists true, stack, (Some t'). unfold member_name.
    rewrite (strip_padded 16 _ _ P) by (intros r E; apply app_inj_tail in E; destruct E; discriminate).
    destruct (last_slash n) as [LS RL]. rewrite LS, RL.
    assert (IT : is_table (n ++ [c_slash]) = true) by (destruct NN as [-> | ->]; reflexivity).
    rewrite IT. cbn [negb andb].
    assert (UN : upto_nul n = n) by (destruct NN as [-> | ->]; reflexivity). rewrite UN.
    assert (NH : prefixb (s2l "#1/") n = false) by (destruct NN as [-> | ->]; reflexivity). rewrite NH. split; [reflexivity|].
    split; [|split; [exact M|exact LD]]. unfold read_table.
    replace ((INT_MAX <? Z.of_nat (length data))%Z) with false by (symmetry; apply Z.ltb_ge; exact LD).
    replace ((Z.of_nat (length data) <? 0)%Z) with false by (symmetry; apply Z.ltb_ge; lia).
    replace ((stack <? Z.of_nat (length data) + 1)%Z) with false by (symmetry; apply Z.ltb_ge; lia).
    rewrite Nat2Z.id, firstn_app, Nat.sub_diag, firstn_all. cbn [firstn]. rewrite app_nil_r, Z.eqb_refl, M. reflexivity.
Qed.

(** ** The scan *)
Definition event : Type := str * bool * Z * Z * Z.
Definition fits (e : entry) (v : event) : Prop :=
  let '(n, short, pos, size, date) := v in n = e_name e /\ short = e_short e /\ pos = e_pos e /\ size = e_size e /\ match e_date e with Some d => date = d | None => True end.
Fixpoint visit {A} (f : A -> str -> bool -> Z -> Z -> Z -> A * Z) (a : A) (l : list event) : A * outcome :=
  match l with
  | [] => (a, Done)
  | (n, short, pos, size, date) :: l' => let '(a', v) := f a n short pos size date in if (v =? 0)%Z then visit f a' l' else (a', Found v)
  end.
Lemma kind_id ts data id n short need ts' : kind ts data id n short need ts' -> length id = 16 /\ (0 <= need)%Z.
Proof. intros K. destruct K; match goal with P : padded 16 _ _ |- _ => destruct P as [P _]; split; [exact P|lia] end. Qed.
Lemma needs_pos ts pos t l need : archive ts pos t l need -> (0 <= need)%Z.
Proof. intros H. induction H; [lia|]. match goal with K : kind _ _ _ _ _ _ _ |- _ => destruct (kind_id _ _ _ _ _ _ _ K) end. lia. Qed.

Lemma scan_archive ts pos t l need : archive ts pos t l need ->
  forall pre, pos = Z.of_nat (length pre) -> Nat.even (length pre) = true ->
  exists evs, Forall2 fits l evs /\
  forall tm stack fuel A f (a : A) junk o, tables ts tm -> (need <= stack)%Z -> length l < fuel -> junk = [] /\ o = Done \/ damaged junk /\ o = Invalid ->
    scan A f (pre ++ t ++ junk) fuel stack tm pos a = match visit f a evs with (a', Done) => (a', o) | r => r end.
Proof.
  intros H. induction H as [ts pos|ts ts' pos id n short need h date s size data pad rest l needs K DT NU PD PL AR IH]; intros pre PO EV.
  - exists []. split; [constructor|]. intros tm stack fuel A f a junk o _ _ LF J. destruct fuel as [|fuel]; [cbn in LF; lia|]. cbn [scan visit]. subst pos.
    replace ((Z.of_nat (length pre) <? 0)%Z) with false by (symmetry; apply Z.ltb_ge; lia). rewrite Nat2Z.id. change ([] ++ junk) with junk.
    assert (SK0 : skipn (length pre) (pre ++ junk) = junk) by (rewrite skipn_app, skipn_all, Nat.sub_diag; reflexivity). rewrite SK0.
    destruct J as [[-> ->]|[(NE & J) ->]]; [reflexivity|].
    assert (NEH : forall X (x y : X), match firstn 60 junk with [] => x | _ => y end = y) by (intros X x y; destruct junk; [congruence|reflexivity]). rewrite NEH.
    assert (C : negb (length (firstn 60 junk) =? 60) || negb (str_eqb (skipn 58 (firstn 60 junk)) fmag) = true); [|rewrite C; reflexivity].
    apply orb_true_iff. destruct J as [LT|(h & m & r & -> & LH & LM & NM)].
    + left. apply negb_true_iff, Nat.eqb_neq. rewrite firstn_length. lia.
    + right. apply negb_true_iff. destruct (str_eqb _ fmag) eqn:Q; [|reflexivity]. exfalso. apply NM. apply str_eqb_eq in Q. rewrite app_assoc in Q.
      replace 60 with (length (h ++ m)) in Q by (rewrite app_length, LH, LM; reflexivity). rewrite firstn_app, Nat.sub_diag, firstn_all in Q. cbn [firstn] in Q. rewrite app_nil_r in Q.
      rewrite <- LH, skipn_app, skipn_all, Nat.sub_diag in Q. exact Q.
  - destruct (kind_id _ _ _ _ _ _ _ K) as [LI NP].
    set (ent := id ++ h ++ size ++ mark ++ data ++ pad).
    assert (LH : length h = 32) by (destruct DT; assumption).
    assert (LZ : length size = 10) by (destruct PD; assumption).
    assert (LE : length ent = 60 + length data + length pad) by (unfold ent; rewrite !app_length, LI, LH, LZ; change (length mark) with 2; lia).
    assert (EVT : Nat.even (length data + length pad) = true).
    { rewrite PL. rewrite (Nat.div_mod (length data) 2) at 1 by lia. pose proof (Nat.mod_upper_bound (length data) 2 ltac:(lia)).
      replace (2 * (length data / 2) + length data mod 2 + length data mod 2) with (2 * (length data / 2 + length data mod 2)) by lia. rewrite Nat.even_mul. reflexivity. }
    destruct (IH (pre ++ ent)) as (evs & F2 & SC).
    { rewrite app_length, LE. lia. }
    { rewrite app_length, LE. replace (length pre + (60 + length data + length pad)) with (length pre + 2 * 30 + (length data + length pad)) by lia. rewrite Nat.even_add, EVT, Nat.even_add, EV. reflexivity. }
    exists ((n, short, pos, Z.of_nat (length data), atol (h ++ size ++ mark)) :: evs). split.
    { constructor; [|exact F2]. cbn [fits e_name e_short e_pos e_size e_date]. repeat (split; [reflexivity|]). destruct date as [d|]; [|exact I].
      destruct DT as (_ & ds & r & ND & L12 & ->). rewrite <- app_assoc. cbn [app]. apply atol_number; [exact ND|lia|]. intros c q E. injection E as <- _. reflexivity. }
    intros tm stack fuel A f a junk o T NS LF J. destruct fuel as [|fuel]; [cbn in LF; lia|]. cbn [scan visit].
    replace ((pos <? 0)%Z) with false by (symmetry; apply Z.ltb_ge; lia).
    pose proof (needs_pos _ _ _ _ _ AR) as NP2.
    assert (SK : skipn (Z.to_nat pos) (pre ++ (id ++ h ++ size ++ mark ++ data ++ pad ++ rest) ++ junk) = (id ++ h ++ size ++ mark) ++ data ++ pad ++ rest ++ junk).
    { rewrite PO, Nat2Z.id, skipn_app, skipn_all, Nat.sub_diag. cbn [skipn app]. rewrite <- !app_assoc. reflexivity. }
    rewrite SK.
    assert (L60 : length (id ++ h ++ size ++ mark) = 60) by (rewrite !app_length, LI, LH, LZ; reflexivity).
    assert (F60 : firstn 60 ((id ++ h ++ size ++ mark) ++ data ++ pad ++ rest ++ junk) = id ++ h ++ size ++ mark) by (rewrite <- L60, firstn_app, Nat.sub_diag, firstn_all; cbn [firstn]; apply app_nil_r).
    assert (S60 : skipn 60 ((id ++ h ++ size ++ mark) ++ data ++ pad ++ rest ++ junk) = data ++ pad ++ rest ++ junk) by (rewrite <- L60, skipn_app, Nat.sub_diag, skipn_all; reflexivity).
    rewrite F60, S60.
    assert (NEH : forall X (x y : X), match id ++ h ++ size ++ mark with [] => x | _ => y end = y) by (intros X x y; destruct (id ++ h ++ size ++ mark); [discriminate|reflexivity]).
    rewrite NEH, L60. cbn [Nat.eqb negb orb].
    assert (S58 : skipn 58 (id ++ h ++ size ++ mark) = mark).
    { rewrite !app_assoc. replace 58 with (length ((id ++ h) ++ size)) by (rewrite !app_length, LI, LH, LZ; reflexivity). rewrite skipn_app, skipn_all, Nat.sub_diag. reflexivity. }
    rewrite S58. change (str_eqb mark fmag) with true. cbn [negb].
    assert (F16 : firstn 16 (id ++ h ++ size ++ mark) = id) by (rewrite <- LI, firstn_app, Nat.sub_diag, firstn_all; cbn [firstn]; apply app_nil_r).
    assert (S16 : skipn 16 (id ++ h ++ size ++ mark) = h ++ size ++ mark) by (rewrite <- LI, skipn_app, Nat.sub_diag, skipn_all; reflexivity).
    assert (S48 : skipn 48 (id ++ h ++ size ++ mark) = size ++ mark).
    { rewrite app_assoc. replace 48 with (length (id ++ h)) by (rewrite app_length, LI, LH; reflexivity). rewrite skipn_app, skipn_all, Nat.sub_diag. reflexivity. }
    rewrite F16, S16, S48.
    assert (SZ : atol (size ++ mark) = Z.of_nat (length data)).
    { destruct PD as (L10 & k & ->). rewrite <- app_assoc. apply atol_number; [exact NU|rewrite app_length in L10; lia|].
      intros c q E. destruct k as [|k]; cbn [repeat app] in E; injection E as <- _; reflexivity. }
    rewrite SZ. destruct (name_of ts tm stack data id n short need ts' (pad ++ rest ++ junk) K T ltac:(lia)) as (tab & stack1 & tm' & MN & RT & T').
    rewrite MN. rewrite negb_involutive. destruct (f a n short pos (Z.of_nat (length data)) (atol (h ++ size ++ mark))) as [a' v]. destruct (v =? 0)%Z; [|reflexivity].
    rewrite RT.
    assert (OFF : (let off' := (pos + (60 + Z.of_nat (length data)))%Z in if Z.odd off' then (off' + 1)%Z else off') = (pos + Z.of_nat (60 + length data + length pad))%Z).
    { cbv zeta. replace (pos + (60 + Z.of_nat (length data)))%Z with (Z.of_nat (length pre + 60 + length data)) by (rewrite PO; lia).
      assert (OD : Z.odd (Z.of_nat (length pre + 60 + length data)) = Nat.odd (length data)).
      { rewrite !Nat2Z.inj_add, !Z.odd_add. change (Z.odd (Z.of_nat 60)) with false.
        assert (ZO : forall k, Z.odd (Z.of_nat k) = Nat.odd k). { induction k as [|k IHk]; [reflexivity|]. rewrite Nat2Z.inj_succ, Z.odd_succ, Nat.odd_succ, <- Z.negb_odd, IHk. unfold Nat.odd. apply negb_involutive. }
        rewrite !ZO. unfold Nat.odd at 1. rewrite EV. cbn [negb]. rewrite xorb_false_r. apply xorb_false_l. }
      rewrite OD. assert (PP : length pad = if Nat.odd (length data) then 1 else 0).
      { rewrite PL. rewrite <- Nat.bit0_odd. rewrite Nat.bit0_eqb. pose proof (Nat.mod_upper_bound (length data) 2 ltac:(lia)). destruct (length data mod 2) as [|[|x]]; [reflexivity|reflexivity|lia]. }
      rewrite PP. destruct (Nat.odd (length data)); lia. }
    cbv zeta in OFF. rewrite OFF. rewrite <- (SC tm' (stack - need)%Z fuel A f a' junk o T'); [|lia|cbn [length] in LF; lia|exact J].
    unfold ent. rewrite <- !app_assoc. reflexivity.
Qed.

(** ** Names *)
Lemma base_after d b : ~ In c_slash b -> forall cur, base_from cur (d ++ c_slash :: b) = b.
Proof.
  intros N. assert (G : forall b cur, ~ In c_slash b -> base_from cur b = rev cur ++ b).
  { clear. induction b as [|c b IH]; intros cur N; cbn [base_from]; [rewrite app_nil_r; reflexivity|].
    assert (E : (c =?c c_slash) = false) by (destruct (c =?c c_slash) eqn:E; [apply eqc_true in E; subst c; exfalso; apply N; left; reflexivity|reflexivity]).
    rewrite E, IH by (intros I; apply N; right; exact I). cbn [rev]. rewrite <- app_assoc. reflexivity. }
  induction d as [|c d IH]; intros cur; cbn [app base_from]; [rewrite eqc_refl; apply (G b [] N)|]. destruct (c =?c c_slash); apply IH.
Qed.
Lemma base_plain b : forall cur, ~ In c_slash b -> base_from cur b = rev cur ++ b.
Proof.
  induction b as [|c b IH]; intros cur N; cbn [base_from]; [rewrite app_nil_r; reflexivity|].
  assert (E : (c =?c c_slash) = false) by (destruct (c =?c c_slash) eqn:E; [apply eqc_true in E; subst c; exfalso; apply N; left; reflexivity|reflexivity]).
  rewrite E, IH by (intros I; apply N; right; exact I). cbn [rev]. rewrite <- app_assoc. reflexivity.
Qed.
Lemma base_eq name b : base name b -> base_from [] name = b.
Proof. intros (N & [-> |(d & ->)]); [apply (base_plain b [] N)|apply base_after; exact N]. Qed.
Lemma equal_iff name b n short : base name b -> (short = true -> length n < 15 \/ n = b) -> ar_name_equal name n short = true <-> n = b.
Proof.
  intros B C. unfold ar_name_equal. rewrite (base_eq name b B). destruct short.
  - split; [|intros ->; apply str_eqb_refl]. intros E. apply str_eqb_eq in E. destruct (C eq_refl) as [L|L]; [|exact L].
    rewrite (firstn_all2 n) in E by lia. assert (LB : length b < 15).
    { apply (f_equal (@length ascii)) in E. rewrite firstn_length in E. lia. }
    rewrite firstn_all2 in E by lia. congruence.
  - split; [intros E; apply str_eqb_eq in E; congruence|intros ->; apply str_eqb_refl].
Qed.
Lemma split_name ar mem : ~ In c_lparen ar -> ar_parse_name (ar ++ c_lparen :: mem ++ [c_rparen]) = (ar, mem).
Proof.
  intros N. unfold ar_parse_name. assert (A : before_paren (ar ++ c_lparen :: mem ++ [c_rparen]) = ar /\ from_paren (ar ++ c_lparen :: mem ++ [c_rparen]) = Some (mem ++ [c_rparen])).
  { induction ar as [|c ar IH]; cbn [app before_paren from_paren]; [rewrite eqc_refl; auto|].
    assert (E : (c =?c c_lparen) = false) by (destruct (c =?c c_lparen) eqn:E; [apply eqc_true in E; subst c; exfalso; apply N; left; reflexivity|reflexivity]).
    rewrite E. destruct IH as [-> ->]; [intros I; apply N; right; exact I|]. auto. }
  destruct A as [-> ->]. rewrite removelast_last. reflexivity.
Qed.

(** ** Touching *)
Lemma lu_spec fuel : forall n acc, (0 <= n < 10 ^ Z.of_nat fuel)%Z -> 0 < fuel ->
  fold_left (fun a c => a * 10 + (Z.of_nat (nat_of_ascii c) - 48))%Z (lu_loop fuel n acc) 0%Z = fold_left (fun a c => a * 10 + (Z.of_nat (nat_of_ascii c) - 48))%Z acc n.
Proof.
  induction fuel as [|k IH]; intros n acc B F; [lia|]. cbn [lu_loop].
  pose proof (Z.mod_pos_bound n 10 ltac:(lia)) as M. pose proof (Z.div_mod n 10 ltac:(lia)) as D.
  assert (EV : (Z.of_nat (nat_of_ascii (ascii_of_nat (48 + Z.to_nat (n mod 10)))) - 48 = n mod 10)%Z) by (rewrite nat_ascii_embedding by lia; lia).
  destruct (Z.eqb_spec (n / 10) 0) as [E|E]; [cbn [fold_left]; rewrite EV; f_equal; lia|].
  rewrite Nat2Z.inj_succ, Z.pow_succ_r in B by lia.
  assert (B2 : (0 <= n / 10 < 10 ^ Z.of_nat k)%Z) by (split; [apply Z.div_pos; lia|apply Z.div_lt_upper_bound; lia]).
  assert (FK : 0 < k) by (destruct k; [change (10 ^ Z.of_nat 0)%Z with 1%Z in B2; lia|lia]).
  rewrite IH by assumption. cbn [fold_left]. rewrite EV. f_equal. lia.
Qed.
Lemma lu_digits fuel : forall n acc, Forall is_dig acc -> Forall is_dig (lu_loop fuel n acc) /\ (acc <> [] -> lu_loop fuel n acc <> []).
Proof.
  induction fuel as [|k IH]; intros n acc F; [auto|]. cbn [lu_loop].
  assert (D : Forall is_dig (ascii_of_nat (48 + Z.to_nat (n mod 10)) :: acc)).
  { constructor; [|exact F]. unfold is_dig. pose proof (Z.mod_pos_bound n 10 ltac:(lia)). rewrite nat_ascii_embedding by lia. lia. }
  destruct (n / 10 =? 0)%Z; [split; [exact D|discriminate]|]. destruct (IH (n / 10)%Z _ D) as [A B]. split; [exact A|]. intros _. apply B. discriminate.
Qed.
Lemma lu_length k : forall fuel n acc, (0 <= n < 10 ^ Z.of_nat k)%Z -> 0 < k -> length (lu_loop fuel n acc) <= k + length acc.
Proof.
  induction k as [|k IH]; intros fuel n acc B K; [lia|]. destruct fuel as [|fuel]; cbn [lu_loop]; [lia|].
  destruct (Z.eqb_spec (n / 10) 0) as [E|E]; [cbn [length]; lia|].
  rewrite Nat2Z.inj_succ, Z.pow_succ_r in B by lia.
  assert (B2 : (0 <= n / 10 < 10 ^ Z.of_nat k)%Z) by (split; [apply Z.div_pos; lia|apply Z.div_lt_upper_bound; lia]).
  assert (FK : 0 < k) by (destruct k; [change (10 ^ Z.of_nat 0)%Z with 1%Z in B2; lia|lia]).
  specialize (IH fuel (n / 10)%Z (ascii_of_nat (48 + Z.to_nat (n mod 10)) :: acc) B2 FK). cbn [length] in IH. lia.
Qed.
Lemma lu_ne fuel n acc : 0 < fuel -> lu_loop fuel n acc <> [].
Proof.
  intros F. destruct fuel as [|k]; [lia|]. cbn [lu_loop]. destruct (n / 10 =? 0)%Z; [discriminate|]. generalize (ascii_of_nat (48 + Z.to_nat (n mod 10))) as c. intros c.
  assert (G : forall k n acc, acc <> [] -> lu_loop k n acc <> []) by (clear; induction k as [|k IH]; intros n acc NE; cbn [lu_loop]; [exact NE|]; destruct (n / 10 =? 0)%Z; [discriminate|apply IH; discriminate]).
  apply G. discriminate.
Qed.
Lemma show_number z : (0 <= z < 10 ^ 11)%Z -> number (show_lu z) z /\ length (show_lu z) <= 11.
Proof.
  intros B. unfold show_lu. rewrite Z.mod_small by (change (2 ^ 64)%Z with 18446744073709551616%Z; change (10 ^ 11)%Z with 100000000000%Z in B; lia).
  split; [|pose proof (lu_length 11 20 z [] B ltac:(lia)); cbn [length] in *; lia]. split; [|split].
  - apply lu_ne. lia.
  - apply lu_digits. constructor.
  - unfold dec_value. rewrite lu_spec; [reflexivity| |lia]. change (10 ^ 11)%Z with 100000000000%Z in B. change (10 ^ Z.of_nat 20)%Z with 100000000000000000000%Z. lia.
Qed.
Lemma over_app a b s : length s <= length a -> over (a ++ b) s = (s ++ skipn (length s) a) ++ b.
Proof. intros L. unfold over. rewrite skipn_app. replace (length s - length a) with 0 by lia. cbn [skipn]. rewrite app_assoc. reflexivity. Qed.
Lemma new_header_spec id h size z : length id = 16 -> length h = 32 -> (0 <= z < 10 ^ 11)%Z ->
  exists h', new_header (id ++ h ++ size) z = id ++ h' ++ size /\ dated h' (Some z) /\ skipn 12 h' = skipn 12 h /\ exists s, number s z /\ padded 12 s (firstn 12 h').
Proof.
  intros LI LH B. destruct (show_number z B) as [N L]. exists ((show_lu z ++ [c_sp]) ++ repeat c_sp (11 - length (show_lu z)) ++ skipn 12 h).
  unfold new_header.
  assert (F16 : firstn 16 (id ++ h ++ size) = id) by (rewrite <- LI, firstn_app, Nat.sub_diag, firstn_all; cbn [firstn]; apply app_nil_r).
  assert (S28 : skipn 28 (id ++ h ++ size) = skipn 12 h ++ size).
  { rewrite skipn_app, (skipn_all2 id) by lia. rewrite LI. cbn [app]. rewrite skipn_app. change (28 - 16) with 12. replace (12 - length h) with 0 by lia. reflexivity. }
  rewrite F16, S28. rewrite over_app by (rewrite app_length, repeat_length; cbn [length]; lia).
  assert (SR : skipn (length (show_lu z ++ [c_sp])) (repeat c_sp 12) = repeat c_sp (11 - length (show_lu z))).
  { rewrite app_length. cbn [length]. assert (G : forall k m, skipn k (repeat c_sp m) = repeat c_sp (m - k)) by (induction k as [|k IH]; intros [|m]; cbn [skipn repeat Nat.sub]; auto).
    rewrite G. f_equal. lia. }
  rewrite SR. split; [rewrite <- !app_assoc; reflexivity|]. split.
  - split; [rewrite !app_length, repeat_length, skipn_length; cbn [length]; lia|]. exists (show_lu z), (repeat c_sp (11 - length (show_lu z)) ++ skipn 12 h).
    split; [exact N|]. split; [lia|]. rewrite <- app_assoc. reflexivity.
  - rewrite app_assoc. rewrite skipn_app. replace (12 - length ((show_lu z ++ [c_sp]) ++ repeat c_sp (11 - length (show_lu z)))) with 0 by (rewrite !app_length, repeat_length; cbn [length]; lia).
    rewrite skipn_all2 by (rewrite !app_length, repeat_length; cbn [length]; lia). split; [reflexivity|]. exists (show_lu z). split; [exact N|].
    rewrite firstn_app. replace (12 - length ((show_lu z ++ [c_sp]) ++ repeat c_sp (11 - length (show_lu z)))) with 0 by (rewrite !app_length, repeat_length; cbn [length]; lia).
    rewrite firstn_all2 by (rewrite !app_length, repeat_length; cbn [length]; lia). cbn [firstn]. rewrite app_nil_r. split; [rewrite !app_length, repeat_length; cbn [length]; lia|].
    exists (S (11 - length (show_lu z))). rewrite <- app_assoc. reflexivity.
Qed.
Definition redate (e : entry) (z : Z) : entry := mkentry (e_name e) (e_short e) (e_pos e) (e_size e) (Some z).
Lemma touch_archive ts pos t l need : archive ts pos t l need -> forall l1 e l2 z, l = l1 ++ e :: l2 -> (0 <= z < 10 ^ 11)%Z ->
  exists a id h tail h', t = a ++ (id ++ h ++ tail) /\ e_pos e = (pos + Z.of_nat (length a))%Z /\ length id = 16 /\ length h = 32 /\ length (firstn 12 tail) = 12 /\
    new_header (id ++ h ++ firstn 12 tail) z = id ++ h' ++ firstn 12 tail /\ length h' = 32 /\ skipn 12 h' = skipn 12 h /\ (exists s, number s z /\ padded 12 s (firstn 12 h')) /\
    archive ts pos (a ++ (id ++ h' ++ tail)) (l1 ++ redate e z :: l2) need.
Proof.
  intros H. induction H as [ts pos|ts ts' pos id n short need h date s size data pad rest l needs K DT NU PD PL AR IH]; intros l1 e l2 z E B.
  - destruct l1; discriminate.
  - destruct (kind_id _ _ _ _ _ _ _ K) as [LI NP]. assert (LH : length h = 32) by (destruct DT; assumption). assert (LZ : length size = 10) by (destruct PD; assumption).
    destruct l1 as [|e1 l1]; cbn [app] in E.
    + injection E as <- <-. exists [], id, h, (size ++ mark ++ data ++ pad ++ rest).
      assert (F12 : firstn 12 (size ++ mark ++ data ++ pad ++ rest) = size ++ mark).
      { rewrite app_assoc. replace 12 with (length (size ++ mark)) by (rewrite app_length, LZ; reflexivity). rewrite firstn_app, Nat.sub_diag, firstn_all. cbn [firstn]. apply app_nil_r. }
      destruct (new_header_spec id h (size ++ mark) z LI LH B) as (h' & NH & DA & SK & PD12). exists h'. rewrite F12. cbn [app length e_pos].
      split; [reflexivity|]. split; [cbn; lia|]. split; [exact LI|]. split; [exact LH|]. split; [rewrite app_length, LZ; reflexivity|]. split; [exact NH|]. split; [destruct DA; assumption|]. split; [exact SK|]. split; [exact PD12|].
      unfold redate. cbn [e_name e_short e_pos e_size]. eapply a_entry; eassumption.
    + injection E as <- E. destruct (IH l1 e l2 z E B) as (a & id2 & h2 & tail & h' & ET & EP & L2 & LH2 & F12 & NH & LH' & SK & PD12 & AR').
      exists (id ++ h ++ size ++ mark ++ data ++ pad ++ a), id2, h2, tail, h'. split; [rewrite ET; rewrite <- !app_assoc; reflexivity|].
      split; [rewrite EP, !app_length, LI, LH, LZ; change (length mark) with 2; lia|]. split; [exact L2|]. split; [exact LH2|]. split; [exact F12|]. split; [exact NH|]. split; [exact LH'|]. split; [exact SK|]. split; [exact PD12|].
      rewrite <- !app_assoc. cbn [app]. eapply a_entry; try eassumption.
Qed.
Lemma archive_pos ts pos t l need : archive ts pos t l need -> (0 < pos)%Z -> forall e, In e l -> (0 < e_pos e)%Z.
Proof. intros H. induction H; intros P e I; [destruct I|]. destruct I as [<- |I]; [exact P|]. apply IHarchive; [lia|exact I]. Qed.

Lemma visit_find {A} f (a : A) l evs name b : Forall2 fits l evs -> base name b -> (forall e, In e l -> e_short e = true -> length (e_name e) < 15 \/ e_name e = b) ->
  (forall a n s p z d, ar_name_equal name n s = false -> f a n s p z d = (a, 0%Z)) ->
  ((forall e, In e l -> e_name e <> b) -> visit f a evs = (a, Done)) /\
  (forall l1 e l2, l = l1 ++ e :: l2 -> e_name e = b -> (forall x, In x l1 -> e_name x <> b) ->
     exists date, match e_date e with Some d => date = d | None => True end /\
       forall a' v, f a (e_name e) (e_short e) (e_pos e) (e_size e) date = (a', v) -> v <> 0%Z -> visit f a evs = (a', Found v)).
Proof.
  intros F B C NF. induction F as [|e v l evs FT F IH].
  - split; [reflexivity|]. intros l1 e l2 E. destruct l1; discriminate.
  - destruct v as [[[[n s] p] z] d]. destruct FT as (-> & -> & -> & -> & D).
    assert (EQ : ar_name_equal name (e_name e) (e_short e) = true <-> e_name e = b) by (apply equal_iff; [exact B|intros S; apply C; [left; reflexivity|exact S]]).
    destruct IH as [IH1 IH2]; [intros x I; apply C; right; exact I|]. split.
    + intros N. cbn [visit]. rewrite NF; [cbn; apply IH1; intros x I; apply N; right; exact I|].
      destruct (ar_name_equal name (e_name e) (e_short e)) eqn:Q; [|reflexivity]. exfalso. apply (N e (or_introl eq_refl)). apply EQ. reflexivity.
    + intros l1 x l2 E EB N. destruct l1 as [|y l1]; cbn [app] in E; injection E as <- E.
      * exists d. split; [exact D|]. intros a' v FA NZ. cbn [visit]. rewrite FA. apply Z.eqb_neq in NZ. rewrite NZ. reflexivity.
      * destruct (IH2 l1 x l2 E EB ltac:(intros y I; apply N; right; exact I)) as (date & DD & V). exists date. split; [exact DD|]. intros a' v FA NZ. cbn [visit].
        rewrite NF; [cbn; apply V; assumption|]. destruct (ar_name_equal name (e_name e) (e_short e)) eqn:Q; [|reflexivity]. exfalso. apply (N e (or_introl eq_refl)). apply EQ. reflexivity.
Qed.

(** ** Any file *)
Definition prefix_of (a b : str) : Prop := exists r, b = a ++ r.
Lemma upto_prefix s : prefix_of (upto_nul s) s.
Proof. induction s as [|c s (r & IH)]; [exists []; reflexivity|]. cbn [upto_nul]. destruct (c =?c c_nul); [exists (c :: s); reflexivity|]. exists r. cbn [app]. rewrite <- IH. reflexivity. Qed.
Lemma strip_prefix s : prefix_of (strip_sp s) s.
Proof.
  assert (G : forall r, exists q, r = q ++ drop_sp r) by (induction r as [|c r (q & IH)]; [exists []; reflexivity|]; cbn [drop_sp]; destruct (c =?c c_sp); [exists (c :: q); cbn [app]; rewrite <- IH; reflexivity|exists []; reflexivity]).
  destruct (G (rev s)) as (q & E). exists (rev q). unfold strip_sp. rewrite <- rev_app_distr, <- E, rev_involutive. reflexivity.
Qed.
Lemma removelast_prefix (s : str) : prefix_of (removelast s) s.
Proof. destruct s as [|c s] using rev_ind; [exists []; reflexivity|]. rewrite removelast_last. exists [c]. reflexivity. Qed.
Lemma prefix_trans a b c : prefix_of a b -> prefix_of b c -> prefix_of a c.
Proof. intros (r & ->) (q & ->). exists (r ++ q). rewrite app_assoc. reflexivity. Qed.
Lemma digits_split r : exists ds q, r = ds ++ q /\ Forall is_dig ds /\ (forall acc, digits_val acc r = fold_left (fun a c => a * 10 + (Z.of_nat (nat_of_ascii c) - 48))%Z ds acc).
Proof.
  induction r as [|c r (ds & q & E & F & D)]; [exists [], []; split; [reflexivity|split; [constructor|reflexivity]]|].
  destruct (isdigit c) eqn:I.
  - exists (c :: ds), q. split; [rewrite E; reflexivity|]. split; [constructor; [unfold isdigit in I; apply andb_true_iff in I; destruct I as [I1 I2]; apply Nat.leb_le in I1, I2; split; assumption|exact F]|].
    intros acc. cbn [digits_val fold_left]. rewrite I. apply D.
  - exists [], (c :: r). split; [reflexivity|]. split; [constructor|]. intros acc. cbn [digits_val fold_left]. rewrite I. reflexivity.
Qed.
Lemma space_split s : exists x, s = x ++ skip_space s.
Proof. induction s as [|c s (x & IH)]; [exists []; reflexivity|]. cbn [skip_space]. destruct (isspace c); [exists (c :: x); cbn [app]; rewrite <- IH; reflexivity|exists []; reflexivity]. Qed.
Lemma atol_cases s : exists x ds q (neg : bool), s = x ++ ds ++ q /\ Forall is_dig ds /\ (neg = true -> In c_minus x) /\ atol s = Z.max (- 2 ^ 63) (Z.min (2 ^ 63 - 1) (if neg then - dec_value ds else dec_value ds)).
Proof.
  unfold atol. destruct (space_split s) as (x & E). destruct (skip_space s) as [|c r].
  - exists x, [], [], false. split; [rewrite E at 1; reflexivity|]. split; [constructor|]. split; [discriminate|reflexivity].
  - destruct (c =?c c_minus) eqn:M; [|destruct (c =?c c_plus) eqn:PL].
    + apply eqc_true in M. subst c. destruct (digits_split r) as (ds & q & ER & F & D). exists (x ++ [c_minus]), ds, q, true.
      split; [rewrite E at 1; rewrite ER, <- app_assoc; reflexivity|]. split; [exact F|]. split; [intros _; apply in_or_app; right; left; reflexivity|]. rewrite D. reflexivity.
    + destruct (digits_split r) as (ds & q & ER & F & D). exists (x ++ [c]), ds, q, false.
      split; [rewrite E at 1; rewrite ER, <- app_assoc; reflexivity|]. split; [exact F|]. split; [discriminate|]. rewrite D. reflexivity.
    + destruct (digits_split (c :: r)) as (ds & q & ER & F & D). exists x, ds, q, false.
      split; [rewrite E at 1; rewrite ER; reflexivity|]. split; [exact F|]. split; [discriminate|]. rewrite D. reflexivity.
Qed.
Definition sound (file : str) : Prop :=
  (forall a size b, file = a ++ size ++ mark ++ b -> length size = 10 -> ~ In c_minus size) /\
  (forall a b, file <> a ++ mark ++ c_nl :: b) /\
  (forall a x ds b, file = a ++ s2l "#1/" ++ x ++ ds ++ b -> length x <= 13 -> Forall is_dig ds -> length ds < 10).
Lemma atoi_small s : (forall x ds q, s = x ++ ds ++ q -> Forall is_dig ds -> length ds < 10) -> atoi s <> INT_MAX.
Proof.
  intros H. destruct (atol_cases s) as (x & ds & q & neg & E & F & _ & A). unfold atoi, to_int. rewrite A.
  pose proof (dec_bound ds F) as B. assert (B2 : (10 ^ Z.of_nat (length ds) <= 10 ^ 9)%Z) by (apply Z.pow_le_mono_r; [lia|]; specialize (H x ds q E F); lia).
  change (10 ^ 9)%Z with 1000000000%Z in B2. change (2 ^ 63)%Z with 9223372036854775808%Z. change (2 ^ 32)%Z with 4294967296%Z. change (2 ^ 31)%Z with 2147483648%Z. unfold INT_MAX.
  rewrite Z.mod_small; destruct neg; lia.
Qed.
Lemma name_safe stack tm id body : (forall x ds q, prefix_of (s2l "#1/" ++ x ++ ds ++ q) id -> Forall is_dig ds -> length ds < 10) ->
  match member_name stack tm id body with inl Corrupt => False | inl Endless => False | _ => True end.
Proof.
  intros H. unfold member_name. set (raw := strip_sp id). set (name := upto_nul (if starts c_slash (rev raw) then removelast raw else raw)).
  assert (PN : prefix_of name id).
  { eapply prefix_trans; [apply upto_prefix|]. destruct (starts c_slash (rev raw)); [eapply prefix_trans; [apply removelast_prefix|apply strip_prefix]|apply strip_prefix]. }
  assert (HASH : match (if prefixb (s2l "#1/") name then
        let len := atoi (skipn 3 name) in if (len <? 1)%Z then inl Invalid else if (len =? INT_MAX)%Z then inl Corrupt else if (stack <? len + 1)%Z then inl No_stack
        else let n := firstn (Z.to_nat len) body in if (Z.of_nat (length n) =? len)%Z then inr (upto_nul n, true, is_table raw, (stack - (len + 1))%Z) else inl Invalid
      else inr (name, false, is_table raw, stack) : outcome + str * bool * bool * Z) with inl Corrupt => False | inl Endless => False | _ => True end).
  { destruct (prefixb (s2l "#1/") name) eqn:PF; [|exact I].
    assert (EN : name = s2l "#1/" ++ skipn 3 name).
    { clear - PF. destruct name as [|a [|b [|c n]]]; cbn [prefixb s2l list_ascii_of_string] in PF; rewrite ?andb_false_r in PF; try discriminate.
      rewrite !andb_true_iff in PF. destruct PF as (A & B & C & _). apply eqc_true in A, B, C. subst. reflexivity. }
    assert (N : atoi (skipn 3 name) <> INT_MAX).
    { apply atoi_small. intros x ds q E F. apply (H x ds q); [rewrite <- E, <- EN; exact PN|exact F]. }
    cbv zeta. apply Z.eqb_neq in N. rewrite N. destruct (atoi (skipn 3 name) <? 1)%Z; [exact I|]. destruct (stack <? atoi (skipn 3 name) + 1)%Z; [exact I|].
    match goal with |- context [if ?b then _ else _] => destruct b end; exact I. }
  cbv zeta in HASH |- *. destruct (negb (is_table raw) && (starts c_sp name || starts c_slash name)); [|exact HASH]. destruct tm as [t|]; [|exact HASH].
  match goal with |- context [if ?b then _ else _] => destruct b end; [exact I|]. match goal with |- context [upto_nul ?s] => destruct (upto_nul s) end; exact I.
Qed.
Lemma skip_skip (n m : nat) (l : str) : skipn n (skipn m l) = skipn (m + n) l.
Proof. revert l. induction m as [|m IH]; intros l; [reflexivity|]. destruct l as [|c l]; [rewrite !skipn_nil; reflexivity|]. apply IH. Qed.
Lemma scan_safe A f file : sound file -> forall fuel stack tm off (a : A), (0 <= off)%Z -> length file < fuel + Z.to_nat off ->
  match snd (scan A f file fuel stack tm off a) with Corrupt => False | Endless => fuel = 0 | _ => True end.
Proof.
  intros (H1 & H2 & H3). induction fuel as [|fuel IH]; intros stack tm off a P L; cbn [scan]; [reflexivity|].
  replace ((off <? 0)%Z) with false by (symmetry; apply Z.ltb_ge; lia).
  set (rest := skipn (Z.to_nat off) file).
  assert (NE : forall X (x y : X), rest <> [] -> match firstn 60 rest with [] => x | _ => y end = y) by (intros X x y N; destruct rest; [congruence|reflexivity]).
  assert (RD : rest = [] \/ rest <> []) by (destruct rest; [left; reflexivity|right; discriminate]). destruct RD as [RD|RD]; [rewrite RD; exact I|].
  rewrite NE by exact RD. destruct (length (firstn 60 rest) =? 60) eqn:L60; [|exact I]. destruct (str_eqb (skipn 58 (firstn 60 rest)) fmag) eqn:FM; [|exact I]. cbn [negb orb].
  apply Nat.eqb_eq in L60. apply str_eqb_eq in FM.
  set (hdr := firstn 60 rest) in *. set (body := skipn 60 rest).
  assert (EF : file = firstn (Z.to_nat off) file ++ hdr ++ body) by (unfold hdr, body; rewrite (firstn_skipn 60 rest); symmetry; apply firstn_skipn).
  set (pre := firstn (Z.to_nat off) file) in *.
  assert (EH : hdr = firstn 48 hdr ++ firstn 10 (skipn 48 hdr) ++ mark).
  { rewrite <- (firstn_skipn 48 hdr) at 1. f_equal. rewrite <- (firstn_skipn 10 (skipn 48 hdr)) at 1. f_equal. rewrite skip_skip. exact FM. }
  assert (L10 : length (firstn 10 (skipn 48 hdr)) = 10) by (rewrite firstn_length, skipn_length; lia).
  assert (NM : ~ In c_minus (firstn 10 (skipn 48 hdr))).
  { apply (H1 (pre ++ firstn 48 hdr) _ body); [|exact L10]. rewrite EF at 1. rewrite EH at 1. rewrite <- !app_assoc. reflexivity. }
  assert (SK48 : skipn 48 hdr = firstn 10 (skipn 48 hdr) ++ mark) by (rewrite <- (firstn_skipn 10 (skipn 48 hdr)) at 1; f_equal; rewrite skip_skip; exact FM).
  assert (SZ : (0 <= atol (skipn 48 hdr))%Z).
  { destruct (atol_cases (skipn 48 hdr)) as (x & ds & q & neg & E & F & NG & ->). pose proof (dec_bound ds F) as B. destruct neg; [|change (2 ^ 63)%Z with 9223372036854775808%Z; lia].
    exfalso. specialize (NG eq_refl). assert (I : In c_minus (skipn 48 hdr)) by (rewrite E; apply in_or_app; left; exact NG). rewrite SK48 in I. apply in_app_or in I. destruct I as [I|I]; [exact (NM I)|cbn in I; intuition discriminate]. }
  assert (NS := name_safe stack tm (firstn 16 hdr) body).
  assert (HY : forall x ds q, prefix_of (s2l "#1/" ++ x ++ ds ++ q) (firstn 16 hdr) -> Forall is_dig ds -> length ds < 10).
  { intros x ds q (r & E) F. apply (H3 pre x ds (q ++ r ++ skipn 16 hdr ++ body)); [|apply (f_equal (@length ascii)) in E; rewrite !app_length in E; rewrite firstn_length in E; cbn [length s2l list_ascii_of_string] in E; lia|exact F].
    rewrite EF at 1. rewrite <- (firstn_skipn 16 hdr) at 1. rewrite E. rewrite <- !app_assoc. reflexivity. }
  specialize (NS HY). destruct (member_name stack tm (firstn 16 hdr) body) as [o|[[[name long] tab] stack1]]; [destruct o; try exact I; destruct NS|].
  destruct (f a name (negb long) off (atol (skipn 48 hdr)) (atol (skipn 16 hdr))) as [a' v]. destruct (v =? 0)%Z; [|exact I].
  assert (RT : match (if tab then read_table stack1 (atol (skipn 48 hdr)) body else inr (stack1, tm)) with inl Corrupt => False | inl Endless => False | _ => True end).
  { destruct tab; [|exact I]. unfold read_table. destruct (INT_MAX <? atol (skipn 48 hdr))%Z; [exact I|].
    replace ((atol (skipn 48 hdr) <? 0)%Z) with false by (symmetry; apply Z.ltb_ge; exact SZ). destruct (stack1 <? atol (skipn 48 hdr) + 1)%Z; [exact I|].
    match goal with |- context [if ?b then _ else _] => destruct b end; [|exact I].
    destruct (munge_some (firstn (Z.to_nat (atol (skipn 48 hdr))) body)) as (t' & ->); [|exact I].
    intros r E. apply (H2 (pre ++ firstn 48 hdr ++ firstn 10 (skipn 48 hdr)) (skipn 1 body)). rewrite EF at 1. rewrite EH at 1. rewrite <- !app_assoc. do 4 f_equal.
    destruct body as [|c body']; [rewrite firstn_nil in E; discriminate|]. destruct (Z.to_nat (atol (skipn 48 hdr))); [discriminate|]. cbn [firstn] in E. injection E as -> _. reflexivity. }
  destruct (if tab then read_table stack1 (atol (skipn 48 hdr)) body else inr (stack1, tm)) as [o|[stack2 tm']]; [destruct o; try exact I; destruct RT|].
  match goal with |- context [scan A f file fuel stack2 tm' ?o a'] => set (off' := o) end.
  assert (LO : (off + 60 <= off')%Z) by (unfold off'; destruct (Z.odd (off + (60 + atol (skipn 48 hdr)))); lia).
  specialize (IH stack2 tm' off' a' ltac:(lia) ltac:(lia)). destruct (snd (scan A f file fuel stack2 tm' off' a')); try exact I; [exact IH|].
  subst fuel. exfalso. assert (length hdr <= length rest) by (unfold hdr; rewrite firstn_length; lia). unfold rest in *. rewrite skipn_length in *. lia.
Qed.

(** ** Patterns *)
Lemma pattern_iff n : forall p opened, length p < n ->
  (ar_glob_pattern_p opened p = true <-> special p \/ opened = true /\ exists m b, p = m ++ "]"%char :: b /\ whole m).
Proof.
  induction n as [|n IH]; intros p opened L; [lia|].
  assert (CONS : forall c s, c <> c_bslash -> special s -> special (c :: s)).
  { intros c s NB (a & W & H). exists (c :: a). split; [constructor; assumption|]. destruct H as [(d & b & -> & D)|(m & b & -> & M)]; [left; exists d, b|right; exists m, b]; split; auto. }
  assert (UNCONS : forall c s, c <> c_bslash -> c <> "?"%char -> c <> "*"%char -> special (c :: s) -> special s \/ c = "["%char /\ exists m b, s = m ++ "]"%char :: b /\ whole m).
  { intros c s NB NQ NS (a & W & H). destruct W as [|d a ND W|d a W].
    - destruct H as [(d & b & E & D)|(m & b & E & M)]; injection E as -> ->; [destruct D; congruence|]. right. split; [reflexivity|]. exists m, b. split; [reflexivity|exact M].
    - left. exists a. split; [exact W|]. destruct H as [(e & b & E & D)|(m & b & E & M)]; injection E as _ ->; [left; exists e, b|right; exists m, b]; split; auto.
    - exfalso. destruct H as [(e & b & E & D)|(m & b & E & M)]; injection E as -> _; congruence. }
  destruct p as [|c p]; cbn [ar_glob_pattern_p].
  { split; [discriminate|]. intros [(a & _ & [(d & b & E & _)|(m & b & E & _)])|(_ & m & b & E & _)]; [destruct a; discriminate|destruct a; discriminate|destruct m; discriminate]. }
  cbn [length] in L. destruct ((c =?c "?") || (c =?c "*")) eqn:Q.
  { split; [intros _|reflexivity]. left. exists []. split; [constructor|]. left. exists c, p. split; [reflexivity|]. apply orb_true_iff in Q. destruct Q as [Q|Q]; apply eqc_true in Q; auto. }
  apply orb_false_iff in Q. destruct Q as [Q1 Q2]. apply eqc_false in Q1, Q2.
  destruct (c =?c c_bslash) eqn:B.
  { apply eqc_true in B. subst c. destruct p as [|d p].
    - split; [discriminate|]. intros [(a & W & H)|(_ & m & b & E & W)].
      + destruct W as [|x a ND W|x a W]; destruct H as [(e & b & E & D)|(m & b & E & M)]; try discriminate E; injection E as E1 E2; subst; try (destruct D; discriminate); congruence.
      + destruct W; try discriminate E. injection E as E1 E2; congruence.
    - rewrite (IH p opened) by (cbn [length] in L; lia). split.
      + intros [(a & W & H)|(O & m & b & -> & W)].
        * left. exists (c_bslash :: d :: a). split; [constructor; exact W|]. destruct H as [(e & b & -> & D)|(m & b & -> & M)]; [left; exists e, b|right; exists m, b]; split; auto.
        * right. split; [exact O|]. exists (c_bslash :: d :: m), b. split; [reflexivity|constructor; exact W].
      + intros [(a & W & H)|(O & m & b & E & W)].
        * left. destruct W as [|x a ND W|x a W].
          -- destruct H as [(e & b & E & D)|(m & b & E & M)]; injection E as E1 E2; subst; try discriminate; destruct D; discriminate.
          -- destruct H as [(e & b & E & D)|(m & b & E & M)]; injection E as E1 E2; congruence.
          -- exists a. split; [exact W|]. destruct H as [(e & b & E & D)|(m & b & E & M)]; injection E as _ ->; [left; exists e, b|right; exists m, b]; split; auto.
        * right. split; [exact O|]. destruct W as [|x m ND W|x m W]; [discriminate E|injection E as E1 E2; congruence|]. injection E as _ ->. exists m, b. split; [reflexivity|exact W]. }
  apply eqc_false in B.
  assert (TAIL : forall m b, c :: p = m ++ "]"%char :: b -> whole m -> c = "]"%char \/ exists m', p = m' ++ "]"%char :: b /\ whole m').
  { intros m b E W. destruct W as [|x m ND W|x m W]; [injection E as -> _; left; reflexivity|injection E as _ ->; right; exists m; split; [reflexivity|exact W]|injection E as E1 E2; congruence]. }
  destruct (c =?c "[") eqn:O1.
  { apply eqc_true in O1. rewrite (IH p true) by lia. split.
    - intros [H|(_ & m & b & -> & W)]; left; [exact (CONS c p B H)|]. exists []. split; [constructor|]. right. exists m, b. subst c. split; [reflexivity|exact W].
    - intros [H|(O & m & b & E & W)].
      + destruct (UNCONS c p B Q1 Q2 H) as [H'|(_ & H')]; [left; exact H'|right; split; [reflexivity|exact H']].
      + destruct (TAIL m b E W) as [X|(m' & E' & W')]; [congruence|]. right. split; [reflexivity|]. exists m', b. split; assumption. }
  apply eqc_false in O1.
  assert (NSP : special (c :: p) -> special p) by (intros H; destruct (UNCONS c p B Q1 Q2 H) as [H'|(X & _)]; [exact H'|congruence]).
  assert (STEP : c <> "]"%char \/ opened = false -> (ar_glob_pattern_p opened p = true <-> special (c :: p) \/ opened = true /\ exists m b, c :: p = m ++ "]"%char :: b /\ whole m)).
  { intros NC. rewrite (IH p opened) by lia. split.
    - intros [H|(O & m & b & -> & W)]; [left; exact (CONS c p B H)|]. right. split; [exact O|]. exists (c :: m), b. split; [reflexivity|constructor; assumption].
    - intros [H|(O & m & b & E & W)]; [left; exact (NSP H)|]. right. split; [exact O|]. destruct (TAIL m b E W) as [X|(m' & E' & W')]; [destruct NC; congruence|]. exists m', b. split; assumption. }
  destruct (c =?c "]") eqn:O2; [|apply eqc_false in O2; apply STEP; left; exact O2].
  apply eqc_true in O2. destruct opened; [|apply STEP; right; reflexivity].
  split; [intros _|reflexivity]. right. split; [reflexivity|]. exists [], p. subst c. split; [reflexivity|constructor].
Qed.
Lemma pattern_special p : ar_glob_pattern_p false p = true <-> special p.
Proof. rewrite (pattern_iff (S (length p)) p false) by lia. split; [intros [H|(X & _)]; [exact H|discriminate]|left; assumption]. Qed.
