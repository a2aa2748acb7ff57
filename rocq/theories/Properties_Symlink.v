(** C72: with -L a file counts with the newest of its own time and those of the links that lead to it. *)
From Coq Require Import Lia String List.
From Verif Require Import Base M_Symlink S_Symlink P_Symlink.
Open Scope string_scope.
Open Scope list_scope.
Open Scope nat_scope.

(** Without -L, or for a name that is too long: the time of the file, or that it does not exist.  An error of stat is reported, and the file does not exist. *)
Theorem C72_plain : forall stat lstat pmax n check name,
  (stat name = Failed -> name_time stat lstat pmax n check name = Value NOT_THERE [(c_stat, name)]) /\
  (stat name <> Failed -> check = false \/ pmax < length name -> name_time stat lstat pmax n check name = Value (own_time (stat name)) []).
Proof.
  intros stat lstat pmax n check name. unfold name_time. split; [intros ->; reflexivity|]. intros N C.
  assert (E : check && (length name <=? pmax) = false) by (destruct C as [->|C]; [reflexivity|apply andb_false_iff; right; apply Nat.leb_gt; exact C]). rewrite E. destruct (stat name); [reflexivity|reflexivity|congruence].
Qed.
(** With -L it is the newest of all, whether the file itself exists or not. *)
Theorem C72_newest : forall stat lstat pmax n name m ms, short lstat pmax -> stat name <> Failed -> length name <= pmax ->
  name_time stat lstat pmax n true name = Value m ms -> exists l, hops lstat pmax name l /\ newest m (own_time (stat name) :: map snd l) /\ length ms <= 1.
Proof.
  intros stat lstat pmax n name m ms SH NF LE H. apply (walk_newest lstat pmax SH n name (own_time (stat name))). unfold name_time in H. apply Nat.leb_le in LE. rewrite LE in H. cbn [andb] in H. destruct (stat name); [exact H|exact H|congruence].
Qed.
(** There is just one such list of links, and if there is one the time is found, after one step more than there are links. *)
Theorem C72_links_unique : forall lstat pmax p l l', hops lstat pmax p l -> hops lstat pmax p l' -> l = l'.
Proof.
  intros lstat pmax p l l' A. revert l'. induction A as [p N | p t L | p t x q L LD LQ | p t x q l L LD LQ HO IH]; intros l' B; inversion B as [? N' | ? t' L' | ? t' x' q' L' LD' LQ' | ? t' x' q' k L' LD' LQ' HO']; subst; try reflexivity;
    try (exfalso; eapply N; eassumption); try (exfalso; eapply N'; eassumption); rewrite L in L'; injection L' as <-; try discriminate; try reflexivity; subst; assert (q' = q) by (eapply leads_unique; eassumption); subst; try lia. f_equal. auto.
Qed.
Theorem C72_result : forall stat lstat pmax name l n check, short lstat pmax -> hops lstat pmax name l -> length l < n -> exists m ms, name_time stat lstat pmax n check name = Value m ms.
Proof.
  intros stat lstat pmax name l n check SH HO G. pose proof (fun m => walk_ends _ _ _ _ SH HO n m G) as W. unfold name_time. destruct (stat name) as [m| |]; [| |eauto]; (destruct (check && _); [apply W|eauto]).
Qed.
(** The buffer is never written beyond its end, whatever is in the file system. *)
Theorem C72_bounds : forall stat lstat pmax n check name, name_time stat lstat pmax n check name <> Overflow.
Proof.
  intros stat lstat pmax n check name. assert (W : forall k p m, walk lstat pmax k p m <> Overflow).
  { induction k as [|k IH]; intros p m; cbn [walk]; [discriminate|]. destruct (lstat p) as [| | |t [x|]]; try discriminate. destruct (step pmax p (firstn pmax x)) as [q|] eqn:E; [|discriminate].
    assert (LX : length (firstn pmax x) <= pmax) by apply firstn_le_length. remember (firstn pmax x) as y eqn:Y. clear Y. assert (LQ : length q <= pmax).
    { destruct (starts y) as [[z ->]|N]; [injection E as <-; exact LX|]. rewrite (step_other pmax p y N) in E. destruct (last_slash p) as [j|] eqn:L; [|injection E as <-; exact LX].
      destruct (Nat.ltb_spec pmax (j + length y + 2)); [discriminate|]. assert (Q : q = firstn (Datatypes.S j) p ++ y) by congruence. rewrite Q, app_length. pose proof (firstn_le_length (Datatypes.S j) p). lia. }
    replace (pmax <? length q) with false by (symmetry; apply Nat.ltb_ge; exact LQ). apply IH. }
  unfold name_time. destruct (stat name); try discriminate; destruct (check && _); try discriminate; apply W.
Qed.
(** A link that leads nowhere counts as a file with -L. *)
Theorem C72_dangling : forall stat lstat pmax n name t x m ms, short lstat pmax -> stat name = Missing -> lstat name = Link t x -> length name <= pmax -> NOT_THERE < t ->
  name_time stat lstat pmax n true name = Value m ms -> t <= m /\ m <> NOT_THERE.
Proof.
  intros stat lstat pmax n name t x m ms SH NF L LE T H. assert (NF' : stat name <> Failed) by congruence. destruct (C72_newest _ _ _ _ _ _ _ SH NF' LE H) as (l & HO & [_ U] & _).
  assert (I : In t (map snd l)). { inversion HO as [? N | ? t' L' | ? t' x' q' L' | ? t' x' q' k L']; subst; [destruct (N t x L)| | |]; rewrite L in L'; injection L' as <- _; left; reflexivity. }
  specialize (U t (or_intror I)). lia.
Qed.

(** ** What does not hold. *)
(** A link among the directories of a name is not looked at, though it may be the newest. *)
Theorem C72_directory_refuted : exists stat lstat, short lstat 20 /\ lstat (s2l "d") = Link 9 (Some (s2l "e")) /\ stat (s2l "d/x") = There 3 /\ forall n, name_time stat lstat 20 (Datatypes.S n) true (s2l "d/x") = Value 3 [].
Proof.
  exists (fun _ => There 3), (fun p => if str_eqb p (s2l "d") then Link 9 (Some (s2l "e")) else Ordinary). split; [|split; [reflexivity|split; [reflexivity|intros n; reflexivity]]].
  intros p t x H. destruct (str_eqb p (s2l "d")); [|discriminate]. injection H as _ <-. cbn. lia.
Qed.
(** Links are not counted: if one comes to point to itself after the call of stat, there is no end. *)
Theorem C72_end_refuted : exists stat lstat, short lstat 20 /\ stat (s2l "a") = There 3 /\ forall n, name_time stat lstat 20 n true (s2l "a") = Unfinished.
Proof.
  exists (fun _ => There 3), (fun _ => Link 5 (Some (s2l "a"))). split; [intros p t x H; injection H as _ <-; cbn; lia|]. split; [reflexivity|]. intros n.
  assert (W : forall k m, walk (fun _ => Link 5 (Some (s2l "a"))) 20 k (s2l "a") m = Unfinished) by (induction k as [|k IH]; intros m; [reflexivity|]; cbn [walk]; apply IH). apply (W n 3).
Qed.

(** ** The hypotheses can be met. *)
Definition w_lstat (p : str) : lstat_answer :=
  if str_eqb p (s2l "d/a") then Link 4 (Some (s2l "b")) else if str_eqb p (s2l "d/b") then Link 9 (Some (s2l "../c")) else if str_eqb p (s2l "d/../c") then Link 6 (Some (s2l "/r")) else Ordinary.
Lemma w_short : short w_lstat 20.
Proof. intros p t x. unfold w_lstat. repeat (destruct (str_eqb p _); [intros H; injection H as _ <-; cbn; lia|]). discriminate. Qed.
(** Three links; the second is the newest. *)
Example ex_newest : name_time (fun _ => There 5) w_lstat 20 9 true (s2l "d/a") = Value 9 [] /\ hops w_lstat 20 (s2l "d/a") [(s2l "d/a", 4); (s2l "d/b", 9); (s2l "d/../c", 6)].
Proof.
  split; [reflexivity|]. apply hp_next with (x := s2l "b") (q := s2l "d/b"); [reflexivity|apply (ld_beside (s2l "d") (s2l "a")); [cbn; intuition discriminate|discriminate]|cbn; lia|].
  apply hp_next with (x := s2l "../c") (q := s2l "d/../c"); [reflexivity|apply (ld_beside (s2l "d") (s2l "b")); [cbn; intuition discriminate|discriminate]|cbn; lia|].
  apply hp_next with (x := s2l "/r") (q := s2l "/r"); [reflexivity|apply ld_root|cbn; lia|]. apply hp_end. intros t x H. discriminate.
Qed.
Example ex_dangling : name_time (fun _ => Missing) w_lstat 20 9 true (s2l "d/a") = Value 9 [] /\ name_time (fun _ => Missing) w_lstat 20 9 false (s2l "d/a") = Value NOT_THERE [].
Proof. split; reflexivity. Qed.
(** A name that becomes too long ends the search. *)
Example ex_long : name_time (fun _ => There 5) w_lstat 4 9 true (s2l "d/a") = Value 9 [].
Proof. reflexivity. Qed.

Print Assumptions C72_plain.
Print Assumptions C72_newest.
Print Assumptions C72_links_unique.
Print Assumptions C72_result.
Print Assumptions C72_bounds.
Print Assumptions C72_dangling.
Print Assumptions C72_directory_refuted.
Print Assumptions C72_end_refuted.
