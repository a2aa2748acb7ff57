(** C48: a line that defines a variable does what its operator says. *)
From Verif Require Import Base S_Text M_Text M_Var S_Var M_Expand S_Expand S_Eval M_FuncTab M_Def S_Def P_Text P_Var P_Def P_Def2 Properties_Expand.
Open Scope string_scope.
Open Scope list_scope.
Open Scope nat_scope.

(** A line is taken for a definition exactly if it is a name, an operator and a text, and then
    name, operator and text are those: nothing inside a reference is taken for an operator, the
    white space around the operator is in neither part, and the rest of the line is the text. *)
Theorem C48_line_is_read_as_written : forall line n f v,
  parse_variable_definition line = Some (n, f, v) <-> defines line n f v.
Proof. exact parse_iff. Qed.
Print Assumptions C48_line_is_read_as_written.

Example C48_line_ex :
  parse_variable_definition (s2l "  $(a:b=c)x  +=   y = z ") = Some (s2l "$(a:b=c)x", f_append, s2l "y = z ") /\
  parse_variable_definition (s2l "a::=b") = Some (s2l "a", f_simple, s2l "b") /\
  parse_variable_definition (s2l "a+ =b") = Some (s2l "a+", f_recursive, s2l "b") /\
  parse_variable_definition (s2l "a: b=c") = None /\
  parse_variable_definition (s2l "a b=c") = None.
Proof. repeat split; vm_compute; reflexivity. Qed.

(** In the global scope: no other variable changes; unless a stronger definition stands, value
    and flavour become what the operator says, and the variable has the origin of the
    definition or is left alone altogether; otherwise value, flavour and strength stay. *)
Theorem C48_global_definition : forall ftab fuel e sh g st line o n f v st1 n' st2 c2,
  defines line n f v -> expand ftab true fuel [g] st n = XOk (st1, n') ->
  try_variable_definition ftab fuel e sh [g] st line o false = XOk (Some (st2, c2)) ->
  exists g2, c2 = [g2] /\ n_id g2 = n_id g /\ n_parent g2 = n_parent g /\
    (forall m, m <> n' -> set_find m (n_set g2) = set_find m (n_set g)) /\
    let X t w := exists st', expand ftab true fuel [g] st1 t = XOk (st', w) in
    let old := set_find n' (n_set g) in
    let new := set_find n' (n_set g2) in
    (forall w, old = Some w -> rank e o < rank e (v_origin w) ->
       exists w', new = Some w' /\ view new = view old /\ rank e (v_origin w') = rank e (v_origin w)) /\
    ((forall w, old = Some w -> rank e (v_origin w) <= rank e o) ->
       assigned X sh (view old) f v (view new) /\
       (n_set g2 = n_set g \/ exists w', new = Some w' /\ rank e (v_origin w') = rank e o)).
Proof.
  intros ftab fuel e sh g st line o n f v st1 n' st2 c2 Hd Hn H.
  unfold try_variable_definition in H. rewrite (proj2 (parse_iff _ _ _ _) Hd), Hn in H. cbn [xbind] in H.
  destruct n' as [|x n0]; [discriminate|]. set (n' := x :: n0) in *.
  destruct (do_variable_definition ftab fuel e sh [g] st1 n' v o f false) as [[st3 c3]|?|] eqn:E; try discriminate.
  cbn in H. injection H as <- <-.
  assert (Hf : f <> f_append_value) by (destruct Hd as (? & ? & ? & ? & ? & Ho & _); intros ->; inversion Ho).
  destruct (global_effect ftab fuel e sh _ _ _ _ _ _ _ _ Hf E) as (g' & -> & H1 & H2 & H3 & H4).
  exists g'. split; [reflexivity|]. split; [exact H1|]. split; [exact H2|]. split; [exact H3|]. cbn zeta.
  destruct H4 as [[H4 H5]|(w & new & H4 & H5 & H6)].
  - rewrite H4. split.
    + intros w Hw L. exists w. auto.
    + intros _. split; [exact H5|left; reflexivity].
  - rewrite H4. destruct (set_find n' (n_set g)) as [old|].
    + destruct H6 as [H6 H7]. split.
      * intros w0 Hw L. injection Hw as <-. destruct (H7 L) as [A B]. exists w. auto.
      * intros L. destruct (H6 (L old eq_refl)) as [A B]. rewrite <- A. split; [exact H5|]. right. exists w. auto.
    + destruct H6 as [A B]. split; [discriminate|]. intros _. rewrite <- A. split; [exact H5|]. right. exists w. auto.
Qed.
Print Assumptions C48_global_definition.

Definition gnode (l : vset) : node := mknode 0 l false.
Definition gvar (value : string) (o : origin) (r : bool) : var := mkvar (s2l value) o r false false false false v_default true.
Definition after (line : string) (o : origin) (s : vset) : option (option (str * bool)) :=
  match try_variable_definition real 9 false (fun s => s) [gnode s] st0 (s2l line) o false with
  | XOk (Some (_, [g])) => Some (view (set_find (s2l "X") (n_set g)))
  | _ => None
  end.
Example C48_global_ex :
  let s := [(s2l "X", gvar "a" o_file false); (s2l "y", gvar "b c" o_file true)] in
  defines (s2l "X += $(y)") (s2l "X") f_append (s2l "$(y)") /\
  after "X += $(y)" o_file s = Some (Some (s2l "a b c", false)) /\
  after "X ?= $(y)" o_file s = Some (Some (s2l "a", false)) /\
  after "X = $(y)" o_file s = Some (Some (s2l "$(y)", true)) /\
  after "X = $(y)" o_env s = Some (Some (s2l "a", false)).
Proof.
  cbn zeta. split; [apply parse_iff; vm_compute; reflexivity|]. repeat split; vm_compute; reflexivity.
Qed.

(** `target: X += v', X having no value of its own in the scope of the target yet: inside the
    target X is its value in the outer scopes, a space and the value of [v], both evaluated in
    the scope of the target, whatever is assigned to X outside later. *)
Theorem C48_target_append : forall ftab fuel e sh nd rest st n v o,
  set_find n (n_set nd) = None ->
  exists nd', do_variable_definition ftab fuel e sh (nd :: rest) st n v o f_append true = XOk (st, nd' :: rest) /\
    n_id nd' = n_id nd /\ n_parent nd' = n_parent nd /\
    (forall m, m <> n -> set_find m (n_set nd') = set_find m (n_set nd)) /\
    forall rest' m outer r, eapp ftab m (nd' :: rest') n (negb (n_parent nd)) rest' outer -> ev ftab m (nd' :: rest') v r ->
      eref ftab m (nd' :: rest') n (joined outer r).
Proof.
  intros ftab fuel e sh nd rest st n v o H. unfold do_variable_definition. cbn [first_set on_first]. rewrite H. cbn [andb].
  eexists. split; [reflexivity|]. split; [reflexivity|]. split; [reflexivity|].
  split; [intros m Hm; apply define_flagged_other; exact Hm|].
  intros rest' m outer r Ho Hr.
  destruct (define_flagged_same e n v o true true false (n_set nd)) as (w & Hw & Ha & _ & K). rewrite H in K. destruct K as (K1 & K2 & _).
  assert (Kp : v_private w = false).
  { unfold define_flagged, define_in_set in Hw. rewrite H in Hw. rewrite find_put_same in Hw. injection Hw as <-. reflexivity. }
  eapply er_append with (v := w); [unfold lookup_variable; cbn [lookup_from n_set with_set]; rewrite Hw; reflexivity|exact Ha|exact K2|].
  eapply ea_more with (v := w); [exact Hw|reflexivity|exact Ha|exact Ho|].
  apply et_rec; [exact K2|]. rewrite K1. exact Hr.
Qed.
Print Assumptions C48_target_append.

Definition value_of (c : chain) (t : string) : option str :=
  match expand real true 20 c st0 (s2l t) with XOk (_, s) => Some s | _ => None end.
Definition assign (c : chain) (line : string) (o : origin) (t : bool) : chain :=
  match try_variable_definition real 20 false (fun s => s) c st0 (s2l line) o t with
  | XOk (Some (_, c')) => c'
  | _ => []
  end.
Example C48_target_append_ex :
  let g := gnode [(s2l "X", gvar "$(b)" o_file true); (s2l "b", gvar "1" o_file true)] in
  let c := assign [mknode 1 [(s2l "b", gvar "2" o_file true)] true; g] "X += 3" o_file true in
  value_of c "$(X)" = Some (s2l "2 3").
Proof. vm_compute. reflexivity. Qed.

(** Not so: "a target-specific definition that is too weak to take effect changes nothing".
    After `foo: override X += 1' the definition `foo: X = 2' is rejected, yet it clears the mark
    that X appends to the outer value, so that foo no longer sees that. *)
Theorem C48_rejected_definition_refuted : exists c line,
  let before := assign c "X += 1" o_override true in
  let after := assign before line o_file true in
  value_of before "$(X)" = Some (s2l "g 1") /\ value_of after "$(X)" = Some (s2l "1") /\
  value_of after "$(origin X)" = Some (s2l "override").
Proof.
  exists [mknode 1 [] true; gnode [(s2l "X", gvar "g" o_file true)]], "X = 2".
  cbn zeta. repeat split; vm_compute; reflexivity.
Qed.
Print Assumptions C48_rejected_definition_refuted.
