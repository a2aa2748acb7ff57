From Coq Require Import Lia.
From Verif Require Import Base M_Rename S_Rename.
Open Scope list_scope.
Open Scope nat_scope.

(** ** Variables *)
Lemma value_app a b n : value_in (a ++ b) n = match value_in a n with Some v => Some v | None => value_in b n end.
Proof. induction a as [| [m v] a IH]; [reflexivity|]. cbn [app value_in]. destruct (str_eqb m n); auto. Qed.
Lemma has_value a n : has a n = true <-> value_in a n <> None.
Proof. unfold has. induction a as [| [m v] a IH]; cbn [existsb value_in fst]; [split; congruence|]. destruct (str_eqb m n); cbn [orb]; [split; congruence|exact IH]. Qed.
Lemma merge_sets_value a b n : value_in (merge_sets a b) n = match value_in a n with Some v => Some v | None => value_in b n end.
Proof.
  unfold merge_sets. rewrite value_app. destruct (value_in a n) eqn:A; [reflexivity|]. induction b as [| [m v] b IH]; [reflexivity|]. cbn [filter value_in fst]. destruct (str_eqb m n) eqn:E.
  - apply str_eqb_eq in E. subst m. assert (H : has a n = false) by (destruct (has a n) eqn:H; auto; apply has_value in H; congruence). rewrite H. cbn [negb value_in]. rewrite str_eqb_refl. reflexivity.
  - destruct (negb (has a m)); [cbn [value_in]; rewrite E|]; exact IH.
Qed.
Definition first_of (a b : option (nat * str)) : option (nat * str) :=
  match a, b with
  | Some (i, x), Some (j, y) => if i <=? j then Some (i, x) else Some (j, y)
  | Some p, None => Some p
  | None, o => o
  end.
Lemma merge_levels_level n : forall a b, level (merge_levels a b) n = first_of (level a n) (level b n).
Proof.
  induction a as [| [i x] a IH]; intros b; [reflexivity|]. destruct b as [| [j y] b].
  - cbn [merge_levels]. destruct (level ((i, x) :: a) n) as [[k v]|]; reflexivity.
  - cbn [merge_levels level]. rewrite merge_sets_value, IH. destruct (value_in x n) as [v|]; [destruct (value_in y n) as [u|]; [|destruct (level b n) as [[]|]]; reflexivity|]. destruct (value_in y n) as [u|].
    + destruct (level a n) as [[k v]|]; reflexivity.
    + destruct (level a n) as [[k v]|], (level b n) as [[k' v']|]; cbn [option_map first_of fst snd]; try reflexivity. destruct (k <=? k') eqn:E; cbn [Nat.leb]; rewrite E; reflexivity.
Qed.

(** ** Heaps *)
Lemma put_same {A} (h : nat -> A) i a : put h i a i = a.
Proof. unfold put. rewrite Nat.eqb_refl. reflexivity. Qed.
Lemma put_other {A} (h : nat -> A) i a j : j <> i -> put h i a j = h j.
Proof. unfold put. intros N. apply Nat.eqb_neq in N. rewrite N. reflexivity. Qed.
Lemma name_same t n v : put_name t n v n = v.
Proof. unfold put_name. rewrite str_eqb_refl. reflexivity. Qed.
Lemma name_other t n v m : m <> n -> put_name t n v m = t m.
Proof. unfold put_name. intros N. destruct (str_eqb m n) eqn:E; [apply str_eqb_eq in E; congruence|reflexivity]. Qed.
(** Renaming entries changes their hname only. *)
Definition hn (es : list nat) (to : str) (h : nat -> file) : nat -> file := fold_left (fun h e => put h e (with_hname (h e) to)) es h.
Lemma with_hname_twice f n : with_hname (with_hname f n) n = with_hname f n.
Proof. reflexivity. Qed.
Lemma hn_in to e : forall es h, In e es -> hn es to h e = with_hname (h e) to.
Proof.
  induction es as [| a es IH]; intros h I; [destruct I|]. unfold hn in *. cbn [fold_left]. destruct (in_dec Nat.eq_dec e es) as [J|J].
  - rewrite IH by exact J. destruct (Nat.eq_dec e a) as [->|N]; [rewrite put_same|rewrite put_other by exact N]; reflexivity.
  - assert (O : forall l g, ~ In e l -> fold_left (fun h e => put h e (with_hname (h e) to)) l g e = g e).
    { clear. induction l as [| b l IHl]; intros g N; [reflexivity|]. cbn [fold_left]. rewrite IHl by (intros X; apply N; right; exact X). apply put_other. intros ->. apply N. left. reflexivity. }
    rewrite O by exact J. destruct I as [->|I]; [|destruct (J I)]. apply put_same.
Qed.
Lemma hn_out to e : forall es h, ~ In e es -> hn es to h e = h e.
Proof. unfold hn. induction es as [| b l IHl]; intros g N; [reflexivity|]. cbn [fold_left]. rewrite IHl by (intros X; apply N; right; exact X). apply put_other. intros ->. apply N. left. reflexivity. Qed.
Lemma entries_later n h : forall i es e, entries n h i = Some es -> (In e es <-> exists d, i = Some d /\ later h d e).
Proof.
  induction n as [| n IH]; intros [j|] es e H; cbn [entries] in H; try discriminate; try (injection H as <-; split; [intros []|intros (d & X & _); discriminate]).
  destruct (entries n h (f_prev (h j))) as [l|] eqn:E; [|discriminate]. injection H as <-. specialize (IH _ _ e E). cbn [In]. rewrite IH. split.
  - intros [<- | (d & D & L)]; [exists j; split; [reflexivity|apply lt_here]|exists j; split; [reflexivity|eapply lt_next; eauto]].
  - intros (d & D & L). injection D as <-. inversion L as [| ? p ? P L']; subst; [auto|]. right. exists p. auto.
Qed.
Lemma later_ext h h' d e : (forall x, f_prev (h' x) = f_prev (h x)) -> later h d e -> later h' d e.
Proof. intros E. induction 1 as [d | d p e P L IH]; [apply lt_here|]. eapply lt_next; [rewrite E; exact P|exact IH]. Qed.
Lemma check_final n h i : f_renamed (h i) = None -> check_renamed n h i = Some i.
Proof. intros E. destruct n; cbn [check_renamed]; rewrite E; reflexivity. Qed.
Lemma check_resolves n h : forall i j, check_renamed n h i = Some j -> resolves h i j.
Proof.
  induction n as [| n IH]; intros i j H; cbn [check_renamed] in H; destruct (f_renamed (h i)) as [k|] eqn:E; try discriminate; try (injection H as <-; apply rs_here; exact E). eapply rs_next; [exact E|auto].
Qed.
Lemma resolves_unique h x y z : resolves h x y -> resolves h x z -> y = z.
Proof. intros A. revert z. induction A as [x E | x y w E A IH]; intros z B; inversion B; subst; try congruence. apply IH. replace y with y0 by congruence. assumption. Qed.

(** ** One step *)
(** What rehash_file does for a file that is in the table. *)
Lemma rehash_known n s i to : sound s -> known s i -> f_hname (heap s i) <> to ->
  match rehash_file n s i to with
  | Abort => False
  | Endless => True
  | o => exists es h1, entries n (put (heap s) i (not_builtin (heap s i))) (f_colon (heap s i)) = Some es /\ h1 = hn (i :: es) to (put (heap s) i (not_builtin (heap s i))) /\
      match table s to with
      | None => o = Done (mkstate h1 (put_name (put_name (table s) (f_hname (heap s i)) None) to (Some i))) None
      | Some k => k <> i /\ (if clash (h1 k) (h1 i) then o = Fatal
                  else o = Done (mkstate (put (put h1 k (merged (h1 k) (h1 i))) i (with_renamed (h1 i) k)) (put_name (table s) (f_hname (heap s i)) None)) (warning (h1 k) (h1 i) to))
      end
  end.
Proof.
  intros [S1 S2] K N. unfold rehash_file. rewrite put_same. cbn [f_hname not_builtin]. destruct (str_eqb (f_hname (heap s i)) to) eqn:E; [apply str_eqb_eq in E; congruence|]. clear E.
  destruct (S1 _ _ K) as [_ R]. rewrite check_final by (rewrite put_same; exact R). rewrite put_same. cbn [f_hname not_builtin f_colon]. rewrite str_eqb_refl. cbn [negb]. unfold known in K. rewrite K, Nat.eqb_refl. cbn [negb].
  destruct (entries n _ (f_colon (heap s i))) as [es|] eqn:ES; [|exact I]. rewrite name_other by congruence. fold (hn (i :: es) to (put (heap s) i (not_builtin (heap s i)))). set (h1 := hn _ _ _).
  destruct (table s to) as [k|] eqn:T.
  - assert (KI : k <> i) by (intros ->; destruct (S1 _ _ T) as [X _]; congruence). destruct (clash (h1 k) (h1 i)) eqn:C; [exists es, h1; auto 6 using eq_refl|].
    + split; [reflexivity|]. split; [reflexivity|]. split; [exact KI|]. rewrite C. reflexivity.
    + exists es, h1. split; [reflexivity|]. split; [reflexivity|]. split; [exact KI|]. rewrite C. rewrite put_other by auto. reflexivity.
  - exists es, h1. auto.
Qed.
