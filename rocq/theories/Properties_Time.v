From Coq Require Import ZArith Lia.
From Verif Require Import Base M_Time.
Open Scope Z_scope.

(** ** C26 *)

(** A time as the file system has it. *)
Definition earlier (a b : Z * Z) : Prop := fst a < fst b \/ (fst a = fst b /\ snd a < snd b).
(** The times make can hold: with nanoseconds until the year 2514, else all that time_t has. *)
Definition holds (hires : bool) (t : Z * Z) : Prop :=
  0 <= fst t < (if hires then 2 ^ 34 else 2 ^ 63) /\ 0 <= snd t < (if hires then 1000000000 else 1).
Definition stamp (hires : bool) (t : Z * Z) : Z := fst (timestamp_cons hires (fst t) (snd t)).

Lemma max_hi : ORDINARY_MTIME_MAX true = 2 ^ 64 - 2 ^ 30 + 1000000002. Proof. reflexivity. Qed.
Lemma max_lo : ORDINARY_MTIME_MAX false = 2 ^ 64 - 1. Proof. reflexivity. Qed.
Lemma ts_max_hi : ts_s true (ORDINARY_MTIME_MAX true) = 2 ^ 34 - 1. Proof. reflexivity. Qed.
Lemma ts_max_lo : ts_s false (ORDINARY_MTIME_MAX false) = 2 ^ 64 - 4. Proof. reflexivity. Qed.

Lemma cons_exact : forall hires t, holds hires t ->
  timestamp_cons hires (fst t) (snd t) = (3 + fst t * (if hires then 2 ^ 30 else 1) + snd t, false).
Proof.
  intros hires [s ns] [H1 H2]. cbn [fst snd] in *. unfold timestamp_cons, ORDINARY_MTIME_MIN, OLD_MTIME.
  destruct hires; cbn [lo_bits].
  - rewrite ts_max_hi, max_hi. unfold lo_bits. rewrite Z.shiftl_mul_pow2 by lia. unfold u64, word.
    rewrite (Z.mod_small s) by lia. rewrite (Z.mod_small (s * 2 ^ 30)) by lia. rewrite (Z.mod_small (s * 2 ^ 30 + _)) by lia.
    rewrite (proj2 (Z.leb_le s (2 ^ 34 - 1))) by lia. rewrite (proj2 (Z.leb_le (s * 2 ^ 30) _)) by lia.
    rewrite (proj2 (Z.leb_le _ (2 ^ 64 - 2 ^ 30 + 1000000002))) by lia. cbn [andb]. f_equal. lia.
  - rewrite ts_max_lo, max_lo. unfold lo_bits. rewrite Z.shiftl_mul_pow2 by lia. change (2 ^ 0) with 1. unfold u64, word.
    rewrite (Z.mod_small s) by lia. rewrite (Z.mod_small (s * 1)) by lia. rewrite (Z.mod_small (s * 1 + _)) by lia.
    rewrite (proj2 (Z.leb_le s (2 ^ 64 - 4))) by lia. rewrite (proj2 (Z.leb_le (s * 1) _)) by lia.
    rewrite (proj2 (Z.leb_le _ (2 ^ 64 - 1))) by lia. cbn [andb]. f_equal. lia.
Qed.
Lemma stamp_exact : forall hires t, holds hires t -> stamp hires t = 3 + fst t * (if hires then 2 ^ 30 else 1) + snd t.
Proof. intros. unfold stamp. rewrite cons_exact by assumption. reflexivity. Qed.

(** The stamp of a time that make can hold is made without complaint, keeps the order exactly and
    lies strictly between the special values. *)
Theorem C26_order_preserved : forall hires a b, holds hires a -> holds hires b ->
  snd (timestamp_cons hires (fst a) (snd a)) = false /\
  (stamp hires a < stamp hires b <-> earlier a b) /\
  (stamp hires a = stamp hires b <-> a = b).
Proof.
  intros hires a b Ha Hb. rewrite (cons_exact hires a Ha), !stamp_exact by assumption. split; [reflexivity|].
  destruct a as [s n], b as [s' n'], Ha as [A1 A2], Hb as [B1 B2]. unfold earlier. cbn [fst snd] in *.
  destruct hires; (split; [lia|split; [intros H; assert (s = s') by lia; subst; f_equal; lia|intros E; inversion E; reflexivity]]).
Qed.
Print Assumptions C26_order_preserved.

Theorem C26_no_special_value : forall hires t, holds hires t ->
  UNKNOWN_MTIME < stamp hires t /\ NONEXISTENT_MTIME < stamp hires t /\ OLD_MTIME < stamp hires t /\ stamp hires t < NEW_MTIME.
Proof.
  intros hires t H. rewrite stamp_exact by assumption. destruct t as [s n], H as [H1 H2]. cbn [fst snd] in *.
  unfold UNKNOWN_MTIME, NONEXISTENT_MTIME, OLD_MTIME, NEW_MTIME, word. destruct hires; lia.
Qed.
Print Assumptions C26_no_special_value.

(** The macros give back the seconds and the nanoseconds. *)
Theorem C26_round_trip : forall hires t, holds hires t ->
  ts_s hires (stamp hires t) = fst t /\ ts_ns hires (stamp hires t) = snd t.
Proof.
  intros hires t H. rewrite stamp_exact by assumption. destruct t as [s n], H as [H1 H2]. cbn [fst snd] in *.
  unfold ts_s, ts_ns, ORDINARY_MTIME_MIN, OLD_MTIME, u64, word, lo_bits. destruct hires.
  - rewrite Z.mod_small by lia. rewrite Z.shiftr_div_pow2 by lia. change (Z.shiftl 1 30 - 1) with (Z.ones 30). rewrite Z.land_ones by lia.
    replace (3 + s * 2 ^ 30 + n - (2 + 1)) with (n + s * 2 ^ 30) by lia. rewrite Z.div_add, Z.mod_add by lia.
    rewrite Z.div_small, Z.mod_small by lia. split; lia.
  - rewrite Z.mod_small by lia. rewrite Z.shiftr_0_r. change (Z.shiftl 1 0 - 1) with 0. rewrite Z.land_0_r. lia.
Qed.
Print Assumptions C26_round_trip.

Example C26_example :
  holds true (1700000000, 123456789) /\ stamp true (1700000000, 123456789) = 1825361100923456792.
Proof. split; [cbv; repeat split; congruence|reflexivity]. Qed.

(** Later times are clamped to the last stamp, with a complaint; so the order is never reversed
    for times since 1970. *)
Theorem C26_late_times_clamped : forall s n, 2 ^ 34 <= s < 2 ^ 63 -> 0 <= n < 1000000000 ->
  timestamp_cons true s n = (ORDINARY_MTIME_MAX true, true).
Proof.
  intros s n H1 H2. unfold timestamp_cons. rewrite ts_max_hi. unfold OLD_MTIME. cbv zeta.
  assert (U : u64 s = s) by (apply Z.mod_small; unfold word; lia). rewrite U.
  rewrite (proj2 (Z.leb_gt s (2 ^ 34 - 1))) by lia. cbn [andb]. rewrite (proj2 (Z.leb_gt s 2)) by lia. reflexivity.
Qed.
Print Assumptions C26_late_times_clamped.
Theorem C26_never_reversed : forall a b, 0 <= fst a < 2 ^ 63 -> 0 <= fst b < 2 ^ 63 ->
  0 <= snd a < 1000000000 -> 0 <= snd b < 1000000000 -> earlier a b -> stamp true a <= stamp true b.
Proof.
  intros a b A1 B1 A2 B2 E. destruct (Z_lt_le_dec (fst b) (2 ^ 34)) as [L|L].
  - assert (Ha : holds true a) by (unfold earlier in E; split; lia). assert (Hb : holds true b) by (split; lia).
    apply Z.lt_le_incl. apply (C26_order_preserved true a b Ha Hb). exact E.
  - unfold stamp at 2. rewrite C26_late_times_clamped by lia. cbn [fst]. destruct (Z_lt_le_dec (fst a) (2 ^ 34)) as [K|K].
    + rewrite stamp_exact by (split; lia). rewrite max_hi. lia.
    + unfold stamp. rewrite C26_late_times_clamped by lia. cbn [fst]. lia.
Qed.
Print Assumptions C26_never_reversed.

(** Times before 1970 are not clamped to the nearest end: every one of them gets the LAST stamp,
    so such a file is newer than all others. *)
Theorem C26_before_1970_refuted : forall s n, - 2 ^ 63 <= s < 0 -> 0 <= n < 1000000000 ->
  stamp true (s, n) = ORDINARY_MTIME_MAX true /\
  forall t, holds true t -> earlier (s, n) t /\ stamp true t <= stamp true (s, n).
Proof.
  intros s n H1 H2. assert (E : stamp true (s, n) = ORDINARY_MTIME_MAX true).
  { unfold stamp, timestamp_cons. rewrite ts_max_hi. cbn [fst snd]. unfold OLD_MTIME. cbv zeta.
    assert (U : u64 s = s + 2 ^ 64). { unfold u64, word. rewrite <- (Z.mod_add s 1) by lia. rewrite Z.mod_small; lia. }
    rewrite U. rewrite (proj2 (Z.leb_gt _ (2 ^ 34 - 1))) by lia. cbn [andb]. rewrite (proj2 (Z.leb_gt _ 2)) by lia. reflexivity. }
  split; [exact E|]. intros t Ht. rewrite E, stamp_exact by exact Ht. rewrite max_hi. destruct Ht as [K1 K2]. split; [left; cbn [fst]; lia|lia].
Qed.
Print Assumptions C26_before_1970_refuted.
(** With one-second stamps that last stamp is the one that stands for "infinitely new". *)
Theorem C26_low_resolution_collides_refuted : exists s, - 2 ^ 63 <= s < 2 ^ 63 /\ stamp false (s, 0) = NEW_MTIME.
Proof. exists (-1). split; [lia|reflexivity]. Qed.
Print Assumptions C26_low_resolution_collides_refuted.

(** The printed fraction: at most nine digits, the last not 0, that mean the nanoseconds. *)
Fixpoint decimal (s : str) (v : Z) : Z :=
  match s with
  | [] => v
  | c :: s' => decimal s' (10 * v + (Z.of_nat (nat_of_ascii c) - 48))
  end.
Definition is_dec (c : ascii) : Prop := (48 <= nat_of_ascii c <= 57)%nat.

Lemma digit_value : forall n, Z.of_nat (nat_of_ascii (ascii_of_nat (48 + Z.to_nat (n mod 10)))) = 48 + n mod 10.
Proof.
  intros n. pose proof (Z.mod_pos_bound n 10 ltac:(lia)). rewrite nat_ascii_embedding by lia. lia.
Qed.
Fixpoint rvalue (s : str) : Z :=
  match s with [] => 0 | c :: s' => Z.of_nat (nat_of_ascii c) - 48 + 10 * rvalue s' end.
Lemma digits_value : forall k n, 0 <= n < 10 ^ Z.of_nat k -> rvalue (digits k n) = n.
Proof.
  induction k as [|k IH]; intros n H; [cbn in *; lia|]. cbn [digits rvalue]. rewrite digit_value.
  rewrite IH; [pose proof (Z.div_mod n 10); lia|].
  replace (Z.of_nat (S k)) with (Z.of_nat k + 1) in H by lia. rewrite Z.pow_add_r in H by lia. change (10 ^ 1) with 10 in H.
  split; [apply Z.div_pos; lia|apply Z.div_lt_upper_bound; lia].
Qed.
Lemma digits_length : forall k n, length (digits k n) = k.
Proof. induction k as [|k IH]; intros n; cbn; [reflexivity|rewrite IH; reflexivity]. Qed.
Lemma digits_dec : forall k n, Forall is_dec (digits k n).
Proof.
  induction k as [|k IH]; intros n; cbn [digits]; constructor; [|apply IH]. unfold is_dec.
  pose proof (digit_value n). pose proof (Z.mod_pos_bound n 10 ltac:(lia)). lia.
Qed.
Lemma drop_zeros_spec : forall s, exists k, s = repeat (ascii_of_nat 48) k ++ drop_zeros s /\
  (forall c t, drop_zeros s = c :: t -> c <> ascii_of_nat 48).
Proof.
  induction s as [|c s IH]; [exists 0%nat; split; [reflexivity|discriminate]|]. cbn [drop_zeros].
  destruct (c =?c ascii_of_nat 48) eqn:E.
  - apply Ascii.eqb_eq in E. subst c. destruct IH as [k [K1 K2]]. exists (S k). split; [cbn [repeat app]; f_equal; exact K1|exact K2].
  - exists 0%nat. split; [reflexivity|]. intros c' t H. inversion H; subst. apply Ascii.eqb_neq. exact E.
Qed.
Lemma rvalue_zeros : forall k s, rvalue (repeat (ascii_of_nat 48) k ++ s) = 10 ^ Z.of_nat k * rvalue s.
Proof.
  induction k as [|k IH]; intros s; [cbn [repeat app]; change (10 ^ Z.of_nat 0) with 1; lia|]. cbn [repeat app rvalue]. rewrite IH.
  replace (Z.of_nat (S k)) with (Z.of_nat k + 1) by lia. rewrite Z.pow_add_r by lia. change (Z.of_nat (nat_of_ascii (ascii_of_nat 48))) with 48. lia.
Qed.
Lemma decimal_app : forall a b v, decimal (a ++ b) v = decimal b (decimal a v).
Proof. induction a as [|c a IH]; intros b v; [reflexivity|]. cbn [app decimal]. apply IH. Qed.
Lemma decimal_rev : forall s, decimal (rev s) 0 = rvalue s.
Proof. induction s as [|c s IH]; [reflexivity|]. cbn [rev rvalue]. rewrite decimal_app, IH. cbn [decimal]. lia. Qed.

Theorem C26_printed_fraction : forall t, holds true t ->
  (snd t = 0 /\ print_fraction true (stamp true t) = []) \/
  (exists d, print_fraction true (stamp true t) = c_dot :: d /\ Forall is_dec d /\ (1 <= length d <= 9)%nat /\
     (forall u, d <> u ++ [ascii_of_nat 48]) /\ decimal d 0 * 10 ^ (9 - Z.of_nat (length d)) = snd t).
Proof.
  intros t H. unfold print_fraction. rewrite (proj2 (C26_round_trip true t H)). destruct H as [_ H].
  pose proof (digits_value 9 (snd t) ltac:(change (10 ^ Z.of_nat 9) with 1000000000; lia)) as V.
  pose proof (digits_length 9 (snd t)) as L. pose proof (digits_dec 9 (snd t)) as D.
  destruct (drop_zeros_spec (digits 9 (snd t))) as [k [K1 K2]]. rewrite K1, rvalue_zeros in V. rewrite K1 in L. rewrite K1 in D.
  rewrite app_length, repeat_length in L. apply Forall_app in D. destruct D as [_ D].
  destruct (drop_zeros (digits 9 (snd t))) as [|c d] eqn:E.
  - left. split; [cbn [rvalue] in V; rewrite Z.mul_0_r in V; symmetry; exact V|reflexivity].
  - right. exists (rev (c :: d)). split; [reflexivity|]. split; [apply Forall_rev; exact D|]. rewrite rev_length. cbn [length] in *. split; [lia|].
    split.
    + intros u Hu. cbn [rev] in Hu. apply app_inj_tail in Hu. destruct Hu as [_ Hu]. exact (K2 c d eq_refl Hu).
    + rewrite decimal_rev. replace (9 - Z.of_nat (S (length d))) with (Z.of_nat k) by lia. lia.
Qed.
Print Assumptions C26_printed_fraction.
Example C26_fraction_example : print_fraction true (stamp true (5, 250000000)) = s2l ".25".
Proof. reflexivity. Qed.

(** Under -L a file counts with the newest of its own stamp and those of the links to it. *)
Theorem C26_links_newest : forall st links,
  In (name_mtime_links st links) (st :: links) /\ forall x, In x (st :: links) -> x <= name_mtime_links st links.
Proof.
  intros st links. unfold name_mtime_links. revert st. induction links as [|l links IH]; intros st; cbn [fold_left].
  - split; [left; reflexivity|]. intros x [->|[]]. lia.
  - destruct (IH (if st <? l then l else st)) as [I1 I2]. split.
    + destruct I1 as [I1|I1]; [|right; right; exact I1]. destruct (st <? l); [right; left; exact I1|left; exact I1].
    + intros x Hx. pose proof (I2 _ (or_introl eq_refl)) as M.
      assert (K : st <= (if st <? l then l else st) /\ l <= (if st <? l then l else st)).
      { destruct (st <? l) eqn:E; [apply Z.ltb_lt in E|apply Z.ltb_ge in E]; lia. }
      destruct Hx as [<-|[<-|Hx]]; [lia|lia|]. apply I2. right. exact Hx.
Qed.
Print Assumptions C26_links_newest.
