(** C32: automatic variables. *)
From Coq Require Import Sorted.
From Verif Require Import Base M_Implicit S_Implicit M_Auto S_Auto P_Auto P_Auto2.
Open Scope string_scope.
Open Scope list_scope.
Open Scope nat_scope.

(** $+ lists the normal prerequisites, $^ each name once that is a normal prerequisite somewhere,
    at its first place, $| the names that are only order-only ones, and $? those of $^ that have
    changed (all with -B).  Of a member of an archive the member is listed. *)
Theorem C32_lists : forall always z ds v ds' z', set_lists always z ds = Some (v, ds', z') ->
  listing ds (in_plus ds) (v_plus v) /\ listing ds (in_caret ds) (v_caret v) /\ listing ds (in_bar ds) (v_bar v) /\ listing ds (in_qmark ds always) (v_qmark v).
Proof. intros always z ds v ds' z'. apply lists_value. Qed.
(** Nothing is written past the end of a buffer, whatever the buffers were before, if the
    prerequisites of one name have changed or not changed together. *)
Theorem C32_memory : forall always z ds, (always = true \/ consistent ds) -> set_lists always z ds <> None.
Proof. intros always z ds. apply lists_ok. Qed.
(** The texts, with a byte for their end, are within the sizes of the buffers. *)
Theorem C32_fits : forall always z ds v ds' z', set_lists always z ds = Some (v, ds', z') ->
  length (v_plus v) < z_plus z' /\ length (v_caret v) < z_plus z' /\ length (v_qmark v) < z_qmark z' /\ length (v_bar v) < z_bar z'.
Proof. exact lists_fit. Qed.

Definition nd (n : string) (order changed : bool) : adep := mkadep n order changed false false.
Example C32_example :
  let ds := [nd "a" true true; nd "b" false true; nd "a" false true; nd "l.a(m.o)" false false; nd "c" true false; nd "b" false true; nd "c" true false; mkadep "x" false true false true] in
  consistent ds /\
  option_map (fun r => fst (fst r)) (set_lists false (mksizes 0 0 0) ds) = Some (mkautos (s2l "b a m.o b") (s2l "a b m.o") (s2l "a b") (s2l "c")).
Proof.
  split; [|vm_compute; reflexivity]. intros j k d d' (D & V) (D' & V') N.
  assert (X : forallb (fun d => forallb (fun d' => negb (str_eqb (a_name d) (a_name d')) || negb (visible d) || negb (visible d') || Bool.eqb (a_changed d) (a_changed d'))
    [nd "a" true true; nd "b" false true; nd "a" false true; nd "l.a(m.o)" false false; nd "c" true false; nd "b" false true; nd "c" true false; mkadep "x" false true false true])
    [nd "a" true true; nd "b" false true; nd "a" false true; nd "l.a(m.o)" false false; nd "c" true false; nd "b" false true; nd "c" true false; mkadep "x" false true false true] = true) by (vm_compute; reflexivity).
  rewrite forallb_forall in X. specialize (X d (nth_error_In _ _ D)). rewrite forallb_forall in X. specialize (X d' (nth_error_In _ _ D')).
  apply visible_iff in V. apply visible_iff in V'. rewrite N, str_eqb_refl, V, V' in X. cbn in X. apply eqb_prop in X. exact X.
Qed.

(** With "t: | d ; ..." and "t: d", if the recipe of d leaves it with an old time, the first mention
    counts as changed and the second does not: $? is written past the end of its buffer. *)
Theorem C32_overflow_refuted : exists ds, set_lists false (mksizes 0 0 0) ds = None.
Proof. exists [nd "d" true true; nd "d" false false]. vm_compute. reflexivity. Qed.

(** If the variables are set a second time, as happens with a second expansion, an order-only
    mention counts for $+ and for $<. *)
Theorem C32_twice_refuted : exists ds v ds' z' v' ds'' z'', set_lists false (mksizes 0 0 0) ds = Some (v, ds', z') /\ set_lists false z' ds' = Some (v', ds'', z'') /\
  v_plus v = s2l "b d" /\ v_plus v' = s2l "d b d" /\ less_value ds = s2l "b" /\ less_value ds' = s2l "d".
Proof. exists [nd "d" true true; nd "b" false false; nd "d" false true]. do 6 eexists. split; [vm_compute; reflexivity|]. split; [vm_compute; reflexivity|]. repeat split. Qed.

(** $@ and $%. *)
Theorem C32_at : forall name,
  (forall a m, name = a ++ c_lparen :: m ++ [c_rparen] -> a <> [] -> ~ In c_lparen a -> m <> [] -> at_value name = a /\ percent_value name = m) /\
  (~ member_reference name -> at_value name = name /\ percent_value name = []).
Proof.
  intros name. split.
  - intros a m -> NE N NM. assert (R : ar_name (a ++ c_lparen :: m ++ [c_rparen]) = true) by (apply ar_name_iff; exists a, m; auto). unfold at_value, percent_value. rewrite R. split.
    + clear -N. induction a as [|c a IH]; [reflexivity|]. cbn [app before_paren]. destruct (c =?c c_lparen) eqn:E; [apply eqc_true in E; subst c; exfalso; apply N; left; reflexivity|]. f_equal. apply IH. intros K. apply N. right. exact K.
    + replace (from_paren (a ++ c_lparen :: m ++ [c_rparen])) with (Some (m ++ [c_rparen])); [apply removelast_last|]. symmetry. apply from_paren_iff. exists a. auto.
  - intros N. unfold at_value, percent_value. destruct (ar_name name) eqn:E; [apply ar_name_iff in E; contradiction|auto].
Qed.
(** $*: the stem of the rule; without one, the name (of a member: the member) without the first
    suffix of .SUFFIXES that it has. *)
Theorem C32_star : forall name suffixes x, listed_as name x -> (forall st, star_value (Some st) name suffixes = st) /\ stripped x suffixes (star_value None name suffixes).
Proof.
  intros name suffixes x L. split; [reflexivity|]. unfold star_value. replace x with (shown name); [apply strip_suffix_ok|].
  pose proof (shown_listed name) as K. destruct L as [a m NE N NM|n N].
  - unfold shown. assert (R : ar_name (a ++ c_lparen :: m ++ [c_rparen]) = true) by (apply ar_name_iff; exists a, m; auto). rewrite R. replace (from_paren (a ++ c_lparen :: m ++ [c_rparen])) with (Some (m ++ [c_rparen])); [apply removelast_last|]. symmetry. apply from_paren_iff. exists a. auto.
  - unfold shown. destruct (ar_name n) eqn:E; [apply ar_name_iff in E; contradiction|reflexivity].
Qed.
(** $<: the first prerequisite that is not order-only and not one of .EXTRA_PREREQS. *)
Theorem C32_less : forall ds,
  (forall j d, nth_error ds j = Some d -> a_order d = false -> a_ignored d = false -> (forall k e, k < j -> nth_error ds k = Some e -> a_order e = true \/ a_ignored e = true) ->
     less_value ds = if a_2nd d then [] else a_name d) /\
  ((forall k e, nth_error ds k = Some e -> a_order e = true \/ a_ignored e = true) -> less_value ds = []).
Proof.
  induction ds as [|e ds [IH1 IH2]]; [split; [intros [|j]; discriminate|reflexivity]|]. cbn [less_value]. split.
  - intros [|j] d D O I F.
    + injection D as ->. rewrite O, I. reflexivity.
    + destruct (negb (a_order e) && negb (a_ignored e)) eqn:E.
      * apply andb_true_iff in E. rewrite !negb_true_iff in E. destruct (F 0 e) as [K|K]; [lia|reflexivity| |]; destruct E; congruence.
      * apply (IH1 j d D O I). intros k e' K H. apply (F (S k) e'); [lia|exact H].
  - intros F. destruct (negb (a_order e) && negb (a_ignored e)) eqn:E.
    + apply andb_true_iff in E. rewrite !negb_true_iff in E. destruct (F 0 e eq_refl) as [K|K]; destruct E; congruence.
    + apply IH2. intros k e' H. exact (F (S k) e' H).
Qed.
Example C32_names_example :
  at_value "lib.a(foo.o)" = s2l "lib.a" /\ percent_value "lib.a(foo.o)" = s2l "foo.o" /\ star_value None "lib.a(foo.o)" [s2l ".c"; s2l ".o"] = s2l "foo" /\
  star_value None "d/x.c.o" [s2l ".o"; s2l ".c.o"] = s2l "d/x.c" /\ star_value None ".o" [s2l ".o"] = [] /\
  less_value [nd "a" true true; mkadep "x" false true false true; nd "b" false false] = s2l "b".
Proof. vm_compute. repeat split. Qed.

Print Assumptions C32_lists.
Print Assumptions C32_memory.
Print Assumptions C32_fits.
Print Assumptions C32_overflow_refuted.
Print Assumptions C32_twice_refuted.
Print Assumptions C32_at.
Print Assumptions C32_star.
Print Assumptions C32_less.
