(** Proofs about the debugger model: stepping, frames, words, command lookup
    and line numbers. *)
From Verif Require Import Base.
From Verif Require Import M_Debugger S_Debugger P_Debugger.
From Coq Require Import Sorting.Sorted.
Open Scope nat_scope.

(** * Stepping *)

(** A point at which update_file_1 enters the debugger while stepping. *)
Definition step_point (v : nat * bool * reason) : Prop :=
  match v with
  | (_, c, R_before_prereq) => c = true
  | (_, _, R_after_cmd) => True
  | _ => False
  end.

Fixpoint visits (oe : bool) (s : dstate) (vs : list (nat * bool * reason)) : list bool :=
  match vs with
  | [] => []
  | (t, c, r) :: rest =>
      let '(b, s') := visit oe s t c r in b :: visits oe s' rest
  end.

Lemma visit_step : forall oe s t c r n,
  step_point (t, c, r) -> h_tracing s t = 0%N -> h_stepping s = S n -> h_nexting s = 0 ->
  visit oe s t c r = (match n with O => true | _ => false end, set_steps s (S (pred n)) 0).
Proof.
  intros oe s t c r n Hp Ht Hs Hn. unfold visit. rewrite Ht, Hs. cbn [N.land N.eqb negb orb].
  replace (0 <? S n) with true by reflexivity.
  assert (E : match r with R_before_prereq => true && c | R_after_prereq => false
              | R_after_cmd => true | R_step => false end = true).
  { destruct r; cbn in Hp |- *; try contradiction; auto. }
  rewrite E. unfold enter_debugger. rewrite Ht, Hs, Hn. cbn [N.eqb negb].
  destruct n as [|n].
  - cbn. rewrite andb_false_r. cbn. rewrite Ht. cbn. destruct s; cbn in *. subst. reflexivity.
  - cbn. reflexivity.
Qed.

Lemma visits_step : forall oe vs s n,
  (forall v, In v vs -> step_point v /\ h_tracing s (fst (fst v)) = 0%N) ->
  forall k, k < length vs ->
  nth_error (visits oe (set_steps s (S n) 0) vs) k = Some (n <=? k).
Proof.
  induction vs as [|[[t c] r] vs IH]; intros s n Hv k Hk; [cbn in Hk; lia|].
  cbn [visits]. destruct (Hv (t, c, r) (or_introl eq_refl)) as [Hp Ht]. cbn in Ht.
  rewrite (visit_step oe (set_steps s (S n) 0) t c r n Hp Ht eq_refl eq_refl).
  destruct k as [|k].
  - cbn. destruct n; reflexivity.
  - cbn [nth_error]. cbn in Hk.
    change (set_steps (set_steps s (S n) 0) (S (pred n)) 0) with (set_steps s (S (pred n)) 0).
    rewrite IH; [destruct n; reflexivity| |lia].
    intros v Hi. apply Hv. right. exact Hi.
Qed.

(** * Frames *)

Open Scope Z_scope.

Lemma wrap32_small : forall z, int_min <= z <= int_max -> wrap32 z = z.
Proof.
  intros z H. unfold wrap32, int_min, int_max in *.
  destruct (Z_lt_ge_dec z 0) as [Hz|Hz].
  - replace (z mod 4294967296) with (z + 4294967296).
    + destruct (z + 4294967296 <=? 2147483647) eqn:E; [apply Z.leb_le in E; lia|lia].
    + rewrite <- (Z_mod_plus_full z 1). rewrite Z.mod_small; lia.
  - rewrite Z.mod_small by lia. destruct (z <=? 2147483647) eqn:E; [reflexivity|].
    apply Z.leb_gt in E. lia.
Qed.

Lemma walk_in : forall l k, (k < length l)%nat ->
  walk l (Z.of_nat k + 1) = (0, Some (skipn k l)).
Proof.
  induction l as [|x l IH]; intros k Hk; [cbn in Hk; lia|]. cbn [walk].
  destruct k as [|k].
  - reflexivity.
  - replace (Z.of_nat (S k) + 1 - 1) with (Z.of_nat k + 1) by lia.
    destruct (Z.of_nat k + 1 =? 0) eqn:E; [apply Z.eqb_eq in E; lia|].
    rewrite IH by (cbn in Hk; lia). reflexivity.
Qed.

Lemma walk_out : forall l i, Z.of_nat (length l) < i ->
  walk l i = (i - Z.of_nat (length l), None).
Proof.
  induction l as [|x l IH]; intros i Hi; cbn [walk].
  - cbn. rewrite Z.sub_0_r. reflexivity.
  - cbn [length] in Hi. destruct (i - 1 =? 0) eqn:E; [apply Z.eqb_eq in E; lia|].
    rewrite IH by lia. f_equal. cbn [length]. lia.
Qed.

Definition frames_of (s : fstate) : list nat :=
  match f_targets s with [] => f_flocs s | l => l end.

Definition cursor (s : fstate) : option (list nat) :=
  match f_targets s with [] => f_floc_cur s | _ => f_cur s end.

Definition depth (s : fstate) : Z := Z.of_nat (length (frames_of s)).

Lemma adjust_spec : forall (s : fstate) (amount : Z) (absolute : bool) (p : Z),
  frames_of s <> [] ->
  0 <= f_pos s < depth s -> depth s <= 1073741824 ->
  int_min <= amount <= int_max ->
  (if absolute then p = (if amount <? 0 then depth s + amount else amount) else p = f_pos s + amount) ->
  int_min <= p < int_max ->
  exists s', f_targets s' = f_targets s /\ f_flocs s' = f_flocs s /\
  ((0 <= p < depth s /\ dbg_adjust_frame s amount absolute = M_ok s' /\ f_pos s' = p
    /\ cursor s' = Some (skipn (Z.to_nat p) (frames_of s))
    /\ (f_targets s <> [] -> f_loc s' = nth_error (frames_of s) (Z.to_nat p)))
   \/ (~ (0 <= p < depth s) /\ dbg_adjust_frame s amount absolute = M_error s' /\ f_pos s' = f_pos s
       /\ f_loc s' = f_loc s
       /\ cursor s' = (if ((p <? 0) && negb (absolute && (amount <? 0)))%bool then cursor s else None))).
Proof.
  intros s amount absolute p Hne Hpos Hd Ha Hp Hr.
  unfold dbg_adjust_frame.
  assert (Htry : exists s0, (if absolute then
      if amount <? 0 then let '(n, s') := dbg_stack_size s in (wrap32 (n + amount), s') else (amount, s)
      else (f_pos s + amount, s)) = (p, s0)
     /\ f_targets s0 = f_targets s /\ f_flocs s0 = f_flocs s /\ f_pos s0 = f_pos s /\ f_loc s0 = f_loc s
     /\ cursor s0 = if absolute && (amount <? 0) then None else cursor s).
  { destruct absolute; [|exists s; subst p; cbn; auto 8].
    destruct (amount <? 0) eqn:E; [|exists s; subst p; cbn; auto 8].
    unfold dbg_stack_size, depth, frames_of, cursor in *.
    destruct (f_targets s) as [|x l] eqn:Et.
    - destruct (f_flocs s) as [|y l'] eqn:Ef; [congruence|].
      eexists. split.
      + rewrite wrap32_small; [rewrite Hp; reflexivity|unfold int_max in *; lia].
      + cbn. rewrite ?Et. auto 8.
    - eexists. split.
      + rewrite wrap32_small; [rewrite Hp; reflexivity|unfold int_max in *; lia].
      + cbn. rewrite ?Et. auto 8. }
  destruct Htry as (s0 & -> & Et & Ef & Epos & Eloc & Ecur). clear Hp.
  unfold in_int, int_min, int_max in *.
  assert (R1 : ((-2147483648 <=? p) && (p <=? 2147483647))%bool = true)
    by (apply andb_true_iff; split; apply Z.leb_le; lia).
  rewrite R1. cbn [negb].
  destruct (p <? 0) eqn:Ep.
  - apply Z.ltb_lt in Ep. exists s0. split; [exact Et|]. split; [exact Ef|]. right.
    split; [lia|]. split; [reflexivity|]. split; [exact Epos|]. split; [exact Eloc|].
    rewrite Ecur. cbn. destruct (absolute && (amount <? 0))%bool; reflexivity.
  - apply Z.ltb_ge in Ep.
    assert (R2 : ((-2147483648 <=? p + 1) && (p + 1 <=? 2147483647))%bool = true)
      by (apply andb_true_iff; split; apply Z.leb_le; lia).
    rewrite R2. cbn [negb andb].
    unfold depth, frames_of, cursor in *. rewrite Et, Ef.
    destruct (f_targets s) as [|x l] eqn:ET.
    + destruct (f_flocs s) as [|y l'] eqn:EF; [congruence|].
      destruct (Z_lt_ge_dec p (Z.of_nat (length (y :: l')))) as [Hlt|Hge].
      * replace (p + 1) with (Z.of_nat (Z.to_nat p) + 1) by lia.
        rewrite walk_in by lia. cbn [Z.eqb negb]. eexists. split; [|split; [|left; split; [lia|split; [reflexivity|]]]]; cbn.
        -- reflexivity.
        -- reflexivity.
        -- split; [reflexivity|]. split; [reflexivity|]. intros H; congruence.
      * rewrite walk_out by lia.
        destruct (p + 1 - Z.of_nat (length (y :: l')) =? 0) eqn:E0; [apply Z.eqb_eq in E0; lia|]. cbn [negb].
        eexists. split; [|split; [|right; split; [lia|split; [reflexivity|]]]]; cbn; auto.
    + destruct (Z_lt_ge_dec p (Z.of_nat (length (x :: l)))) as [Hlt|Hge].
      * replace (p + 1) with (Z.of_nat (Z.to_nat p) + 1) by lia.
        rewrite walk_in by lia. cbn [Z.eqb negb]. eexists. split; [|split; [|left; split; [lia|split; [reflexivity|]]]]; cbn [f_targets f_flocs f_pos f_cur f_floc_cur f_loc].
        -- reflexivity.
        -- reflexivity.
        -- split; [reflexivity|]. split; [reflexivity|]. intros _.
           assert (Hn : forall (L : list nat) k, match skipn k L with x0 :: _ => Some x0 | [] => None end = nth_error L k).
           { induction L as [|z L IH]; destruct k; cbn; auto. }
           apply Hn.
      * rewrite walk_out by lia.
        destruct (p + 1 - Z.of_nat (length (x :: l)) =? 0) eqn:E0; [apply Z.eqb_eq in E0; lia|]. cbn [negb].
        eexists. split; [|split; [|right; split; [lia|split; [reflexivity|]]]]; cbn; auto.
Qed.

Definition small_motion (m : motion) : Prop := small (motion_number m).

(** Does the motion, when impossible, lose the cursor? *)
Definition loses (p : Z) (m : motion) : bool :=
  match m with Frame n => true | _ => negb (p <? 0) end.

Lemma motion_spec : forall s m,
  frames_of s <> [] -> 0 <= f_pos s < depth s -> depth s <= 1073741824 -> small_motion m ->
  let p := asked (depth s) (f_pos s) m in
  exists s', f_targets s' = f_targets s /\ f_flocs s' = f_flocs s /\
  ((0 <= p < depth s /\ do_motion s m = M_ok s' /\ f_pos s' = p
    /\ cursor s' = Some (skipn (Z.to_nat p) (frames_of s))
    /\ (f_targets s <> [] -> f_loc s' = nth_error (frames_of s) (Z.to_nat p)))
   \/ (~ (0 <= p < depth s) /\ do_motion s m = M_error s' /\ f_pos s' = f_pos s
       /\ f_loc s' = f_loc s
       /\ cursor s' = if loses p m then None else cursor s)).
Proof.
  intros s m Hne Hpos Hd Hs p. unfold small_motion, small in Hs.
  destruct m as [n|n|n]; cbn [motion_number do_motion asked loses] in *.
  - rewrite wrap32_small by (unfold int_min, int_max; lia).
    destruct (adjust_spec s n true p Hne Hpos Hd) as (s' & H1 & H2 & H3).
    + unfold int_min, int_max; lia.
    + reflexivity.
    + unfold p, int_min, int_max. destruct (n <? 0) eqn:E; [apply Z.ltb_lt in E|apply Z.ltb_ge in E]; lia.
    + exists s'. split; [exact H1|]. split; [exact H2|]. destruct H3 as [H3|H3]; [left; exact H3|right].
      destruct H3 as (A & B & C & D & E). split; [exact A|]. split; [exact B|]. split; [exact C|]. split; [exact D|].
      rewrite E. destruct ((p <? 0) && negb (true && (n <? 0)))%bool eqn:X; [|reflexivity].
      exfalso. apply andb_true_iff in X. destruct X as [X1 X2]. apply Z.ltb_lt in X1.
      cbn in X2. apply negb_true_iff in X2. unfold p in X1. rewrite X2 in X1. apply Z.ltb_ge in X2. lia.
  - rewrite wrap32_small by (unfold int_min, int_max; lia).
    destruct (adjust_spec s n false p Hne Hpos Hd) as (s' & H1 & H2 & H3).
    + unfold int_min, int_max; lia.
    + reflexivity.
    + unfold p, int_min, int_max. lia.
    + exists s'. split; [exact H1|]. split; [exact H2|]. destruct H3 as [H3|H3]; [left; exact H3|right].
      destruct H3 as (A & B & C & D & E). split; [exact A|]. split; [exact B|]. split; [exact C|]. split; [exact D|].
      rewrite E. cbn. rewrite andb_true_r. destruct (p <? 0); reflexivity.
  - rewrite wrap32_small by (unfold int_min, int_max; lia).
    assert (R : in_int (- n) = true).
    { unfold in_int, int_min, int_max. apply andb_true_iff; split; apply Z.leb_le; lia. }
    rewrite R.
    destruct (adjust_spec s (- n) false p Hne Hpos Hd) as (s' & H1 & H2 & H3).
    + unfold int_min, int_max; lia.
    + unfold p. lia.
    + unfold p, int_min, int_max. lia.
    + exists s'. split; [exact H1|]. split; [exact H2|]. destruct H3 as [H3|H3]; [left; exact H3|right].
      destruct H3 as (A & B & C & D & E). split; [exact A|]. split; [exact B|]. split; [exact C|]. split; [exact D|].
      rewrite E. cbn. rewrite andb_true_r. destruct (p <? 0); reflexivity.
Qed.

Record finv (tg fl : list nat) (s : fstate) : Prop := mkFinv {
  fi_t : f_targets s = tg;
  fi_f : f_flocs s = fl;
  fi_pos : 0 <= f_pos s < depth s;
  fi_loc : tg <> [] -> f_loc s = nth_error tg (Z.to_nat (f_pos s));
  fi_cur : cursor s = None \/ cursor s = Some (skipn (Z.to_nat (f_pos s)) (frames_of s));
}.

Lemma finv_init : forall tg fl, (tg <> [] \/ fl <> []) -> finv tg fl (frame_init tg fl).
Proof.
  intros tg fl H. constructor; try reflexivity.
  - unfold depth, frames_of, frame_init. cbn. destruct tg as [|x tg]; [destruct fl as [|y fl]|]; cbn; try lia.
    exfalso; destruct H; congruence.
  - right. unfold cursor, frames_of, frame_init. cbn. destruct tg as [|x tg]; [destruct fl as [|y fl]|]; try reflexivity.
    exfalso; destruct H; congruence.
Qed.

Lemma frames_ne : forall tg fl s, finv tg fl s -> frames_of s <> [].
Proof. intros tg fl s F E. pose proof (fi_pos _ _ _ F) as H. unfold depth in H. rewrite E in H. cbn in H. lia. Qed.

Definition fdepth (tg fl : list nat) : Z :=
  Z.of_nat (length (match tg with [] => fl | _ => tg end)).

Lemma finv_depth : forall tg fl s, finv tg fl s -> depth s = fdepth tg fl
  /\ frames_of s = match tg with [] => fl | _ => tg end.
Proof.
  intros tg fl s [H1 H2 _ _ _]. unfold depth, frames_of, fdepth. rewrite H1, H2. destruct tg; auto.
Qed.

Lemma run_motions_spec : forall tg fl ms s, finv tg fl s -> fdepth tg fl <= 1073741824 ->
  Forall small_motion ms ->
  exists s', run_motions s ms = Some s' /\ finv tg fl s'
   /\ f_pos s' = fold_left (fun pos m => let p := asked (fdepth tg fl) pos m in
                          if (0 <=? p)%Z && (p <? fdepth tg fl)%Z then p else pos) ms (f_pos s).
Proof.
  intros tg fl ms. induction ms as [|m ms IH]; intros s F Hd Hs.
  - exists s. cbn. auto.
  - inversion Hs as [|? ? Hm Hms]; subst. cbn [run_motions fold_left].
    destruct (finv_depth _ _ _ F) as [Ed Efr].
    destruct (motion_spec s m (frames_ne _ _ _ F) (fi_pos _ _ _ F) ltac:(lia) Hm)
      as (s1 & H1 & H2 & H3). rewrite Ed in H3.
    set (p := asked (fdepth tg fl) (f_pos s) m) in *.
    assert (Efr1 : frames_of s1 = frames_of s) by (unfold frames_of; rewrite H1, H2; reflexivity).
    destruct H3 as [(A & B & C & D & E)|(A & B & C & D & E)]; rewrite B.
    + assert (F1 : finv tg fl s1).
      { constructor.
        - rewrite H1. apply (fi_t _ _ _ F).
        - rewrite H2. apply (fi_f _ _ _ F).
        - unfold depth. rewrite Efr1, C. unfold depth in Ed. rewrite Ed. exact A.
        - intros Ht. rewrite C, E by (rewrite (fi_t _ _ _ F); exact Ht). rewrite Efr.
          destruct tg; [congruence|reflexivity].
        - right. rewrite D, C, Efr1. reflexivity. }
      destruct (IH s1 F1 Hd Hms) as (s' & R & F' & P). exists s'. split; [exact R|]. split; [exact F'|].
      rewrite P. f_equal. rewrite C.
      assert (X : ((0 <=? p) && (p <? fdepth tg fl))%bool = true)
        by (apply andb_true_iff; split; [apply Z.leb_le|apply Z.ltb_lt]; lia).
      rewrite X. reflexivity.
    + assert (F1 : finv tg fl s1).
      { constructor.
        - rewrite H1. apply (fi_t _ _ _ F).
        - rewrite H2. apply (fi_f _ _ _ F).
        - unfold depth. rewrite Efr1, C. apply (fi_pos _ _ _ F).
        - intros Ht. rewrite D, C. apply (fi_loc _ _ _ F Ht).
        - rewrite E, C, Efr1. destruct (loses p m); [left; reflexivity|apply (fi_cur _ _ _ F)]. }
      destruct (IH s1 F1 Hd Hms) as (s' & R & F' & P). exists s'. split; [exact R|]. split; [exact F'|].
      rewrite P. f_equal. rewrite C.
      assert (X : ((0 <=? p) && (p <? fdepth tg fl))%bool = false).
      { apply not_true_iff_false. intros X. apply andb_true_iff in X. destruct X as [X1 X2].
        apply Z.leb_le in X1. apply Z.ltb_lt in X2. lia. }
      rewrite X. reflexivity.
Qed.

Lemma run_motions_app : forall a b s,
  run_motions s (a ++ b) = match run_motions s a with Some s' => run_motions s' b | None => None end.
Proof.
  induction a as [|m a IH]; intros b s; cbn; [reflexivity|].
  destruct (do_motion s m); auto.
Qed.

Close Scope Z_scope.

(** * Words *)

Lemma whitespace_spec : forall c, whitespace c = true <-> c = c_sp \/ c = c_tab.
Proof.
  intros c. unfold whitespace. rewrite orb_true_iff, !Ascii.eqb_eq. reflexivity.
Qed.

Lemma word_head : forall w, is_word w -> exists c w', w = c :: w' /\ whitespace c = false.
Proof.
  intros w [Hn Hc]. destruct w as [|c w']; [congruence|]. exists c, w'. split; [reflexivity|].
  destruct (whitespace c) eqn:E; [|reflexivity]. apply whitespace_spec in E.
  destruct (Hc c (or_introl eq_refl)). destruct E; congruence.
Qed.

Lemma word_chars : forall w, is_word w -> forall c, In c w -> whitespace c = false.
Proof.
  intros w [_ Hc] c Hi. destruct (whitespace c) eqn:E; [|reflexivity]. apply whitespace_spec in E.
  destruct (Hc c Hi). destruct E; congruence.
Qed.

Lemma cut_word_app : forall w r, (forall c, In c w -> whitespace c = false) ->
  (r = [] \/ exists b r', r = b :: r' /\ whitespace b = true) ->
  cut_word (w ++ r) = (w, match r with [] => [] | _ :: r' => r' end).
Proof.
  induction w as [|c w IH]; intros r Hw Hr; cbn [app cut_word].
  - destruct Hr as [->|(b & r' & -> & Hb)]; [reflexivity|]. cbn. rewrite Hb. reflexivity.
  - rewrite (Hw c (or_introl eq_refl)). rewrite IH; [reflexivity| |exact Hr].
    intros x Hx. apply Hw. right. exact Hx.
Qed.

Lemma get_word_app : forall w r, is_word w ->
  (r = [] \/ exists b r', r = b :: r' /\ whitespace b = true) ->
  get_word (w ++ r) = (w, match r with [] => [] | _ :: r' => r' end).
Proof.
  intros w r Hw Hr. destruct (word_head w Hw) as (c & w' & E & Hc). unfold get_word.
  assert (S : skip_leading (w ++ r) = w ++ r) by (rewrite E; cbn; rewrite Hc; reflexivity).
  rewrite S. apply cut_word_app; [apply word_chars; exact Hw|exact Hr].
Qed.

Lemma words_loop_spec : forall ws line, line_of one_blank ws line ->
  forall fuel, length line < fuel -> words_loop fuel line = ws.
Proof.
  intros ws line H. induction H as [w Hw|w g ws rest Hw Hg Hl IH]; intros fuel Hf.
  - destruct fuel as [|fuel]; [lia|]. cbn [words_loop].
    pose proof (get_word_app w [] Hw (or_introl eq_refl)) as G. rewrite app_nil_r in G. rewrite G.
    destruct (word_head w Hw) as (c & w' & -> & _). destruct fuel; reflexivity.
  - destruct fuel as [|fuel]; [lia|]. cbn [words_loop].
    destruct Hg as [-> | ->]; cbn [app] in *.
    + rewrite get_word_app by (auto; right; eexists _, _; split; reflexivity).
      destruct (word_head w Hw) as (c & w' & -> & _). f_equal. apply IH.
      rewrite app_length in Hf. cbn in Hf. lia.
    + rewrite get_word_app by (auto; right; eexists _, _; split; reflexivity).
      destruct (word_head w Hw) as (c & w' & -> & _). f_equal. apply IH.
      rewrite app_length in Hf. cbn in Hf. lia.
Qed.

Lemma line_head : forall gap ws line, line_of gap ws line -> exists c r, line = c :: r /\ whitespace c = false.
Proof.
  intros gap ws line H. inversion H; subst.
  - destruct (word_head line H0) as (c & w' & -> & Hc). eauto.
  - destruct (word_head w H0) as (c & w' & -> & Hc). cbn. eauto.
Qed.

Lemma skip_white_gap : forall g r, (forall c, In c g -> c = c_sp \/ c = c_tab) ->
  skip_white (g ++ r) = skip_white r.
Proof.
  induction g as [|c g IH]; intros r H; [reflexivity|]. cbn.
  assert (E : whitespace c = true) by (apply whitespace_spec, H; left; reflexivity).
  rewrite E. apply IH. intros x Hx. apply H. right. exact Hx.
Qed.

Lemma command_word : forall w g ws rest, is_word w -> is_gap g -> line_of is_gap ws rest ->
  fst (get_word (w ++ g ++ rest)) = w /\ skip_white (snd (get_word (w ++ g ++ rest))) = rest.
Proof.
  intros w g ws rest Hw [Hg Hc] Hl. destruct g as [|b g]; [congruence|].
  assert (Hb : whitespace b = true) by (apply whitespace_spec, Hc; left; reflexivity).
  rewrite get_word_app by (auto; right; exists b, (g ++ rest); auto). cbn [fst snd app].
  split; [reflexivity|]. rewrite skip_white_gap by (intros x Hx; apply Hc; right; exact Hx).
  destruct (line_head _ _ _ Hl) as (c & r & -> & E). cbn. rewrite E. reflexivity.
Qed.

Lemma is_prefix_spec : forall p s, is_prefix p s = true <-> exists r, s = p ++ r.
Proof.
  induction p as [|x p IH]; intros s; cbn.
  - split; [intros _; exists s; reflexivity|reflexivity].
  - destruct s as [|y s]; [split; [discriminate|intros (r & H); discriminate]|].
    rewrite andb_true_iff, Ascii.eqb_eq, IH. split.
    + intros (-> & r & ->). exists r. reflexivity.
    + intros (r & H). injection H as -> ->. split; [reflexivity|]. exists r. reflexivity.
Qed.

Lemma strstr_0 : forall hay needle, strstr hay needle = Some 0 <-> is_prefix needle hay = true.
Proof.
  intros hay needle. destruct hay as [|c hay]; cbn [strstr].
  - destruct (is_prefix needle []) eqn:E; split; intros; congruence.
  - destruct (is_prefix needle (c :: hay)) eqn:E; split; intros H; try congruence.
    destruct (strstr hay needle); discriminate.
Qed.

(** * Command lookup *)

Lemma strcmp_eq : forall a b, strcmp a b = Eq <-> a = b.
Proof.
  induction a as [|x a IH]; destruct b as [|y b]; cbn; split; intros H; try congruence.
  - destruct (Nat.compare_spec (nat_of_ascii x) (nat_of_ascii y)) as [E|E|E]; try discriminate.
    apply IH in H. subst. f_equal.
    rewrite <- (ascii_nat_embedding x), <- (ascii_nat_embedding y), E. reflexivity.
  - injection H as -> ->. rewrite Nat.compare_refl. apply IH. reflexivity.
Qed.

Lemma strcmp_trans : forall a b c, strcmp a b = Lt -> strcmp b c = Lt -> strcmp a c = Lt.
Proof.
  induction a as [|x a IH]; intros b c H1 H2.
  - destruct b as [|y b]; [discriminate|]. destruct c as [|z c]; [discriminate|]. reflexivity.
  - destruct b as [|y b]; [discriminate|]. destruct c as [|z c]; [discriminate|]. cbn in *.
    destruct (Nat.compare_spec (nat_of_ascii x) (nat_of_ascii y)) as [E|E|E]; try discriminate;
    destruct (Nat.compare_spec (nat_of_ascii y) (nat_of_ascii z)) as [F|F|F]; try discriminate;
    destruct (Nat.compare_spec (nat_of_ascii x) (nat_of_ascii z)) as [G|G|G]; try reflexivity; try lia.
    eapply IH; eassumption.
Qed.

Definition sorted_table {A} (tab : list (str * A)) : Prop :=
  StronglySorted (fun a b => strcmp (fst a) (fst b) = Lt) tab.

Lemma table_search_spec : forall A (tab : list (str * A)) name v, sorted_table tab ->
  (table_search tab name = Some v <-> In (name, v) tab).
Proof.
  induction tab as [|[k w] tab IH]; intros name v Hs; cbn.
  - split; [discriminate|intros []].
  - inversion Hs as [|? ? Hs' Hf]; subst. rewrite Forall_forall in Hf.
    destruct (strcmp name k) eqn:E.
    + apply strcmp_eq in E. subst k. split.
      * intros H. injection H as ->. left. reflexivity.
      * intros [H|H]; [injection H as ->; reflexivity|].
        apply Hf in H. cbn in H. assert (X : strcmp name name = Eq) by (apply strcmp_eq; reflexivity). congruence.
    + split; [discriminate|]. intros [H|H].
      * injection H as -> ->. assert (X : strcmp name name = Eq) by (apply strcmp_eq; reflexivity). congruence.
      * apply Hf in H. cbn in H. pose proof (strcmp_trans _ _ _ E H) as T.
        assert (X : strcmp name name = Eq) by (apply strcmp_eq; reflexivity). congruence.
    + rewrite (IH name v Hs'). split; [auto|]. intros [H|H]; [|exact H].
      injection H as -> ->. assert (X : strcmp name name = Eq) by (apply strcmp_eq; reflexivity). congruence.
Qed.

Fixpoint sorted_b {A} (tab : list (str * A)) : bool :=
  match tab with
  | [] => true
  | x :: r => forallb (fun y => match strcmp (fst x) (fst y) with Lt => true | _ => false end) r && sorted_b r
  end.

Lemma sorted_b_sound : forall A (tab : list (str * A)), sorted_b tab = true -> sorted_table tab.
Proof.
  induction tab as [|x r IH]; intros H; [constructor|]. cbn in H. apply andb_true_iff in H.
  destruct H as [H1 H2]. constructor; [apply IH; exact H2|]. apply Forall_forall. intros y Hy.
  rewrite forallb_forall in H1. apply H1 in Hy. destruct (strcmp (fst x) (fst y)); congruence.
Qed.

Lemma commands_sorted : sorted_table dbg_commands.
Proof. apply sorted_b_sound. vm_compute. reflexivity. Qed.

Lemma aliases_sorted : sorted_table aliases.
Proof. apply sorted_b_sound. vm_compute. reflexivity. Qed.

(** * Line numbers *)

Lemma la_write_spec : forall a i e a', la_write a i e = Some a' ->
  length a' = length a /\ i < length a /\
  forall j, nth_error a' j = if j =? i then Some (Some e) else nth_error a j.
Proof.
  induction a as [|x a IH]; intros i e a' H; [destruct i; discriminate|].
  destruct i as [|i]; cbn in H.
  - injection H as <-. cbn. split; [reflexivity|]. split; [lia|]. intros [|j]; reflexivity.
  - destruct (la_write a i e) as [r'|] eqn:E; [|discriminate]. injection H as <-.
    destruct (IH _ _ _ E) as (H1 & H2 & H3). cbn. split; [lia|]. split; [lia|].
    intros [|j]; [reflexivity|]. cbn. apply H3.
Qed.

Lemma la_write_ok : forall a i e, i < length a -> exists a', la_write a i e = Some a'.
Proof.
  induction a as [|x a IH]; intros i e H; [cbn in H; lia|].
  destruct i as [|i]; cbn; [eauto|]. destruct (IH i e) as (a' & E); [cbn in H; lia|]. rewrite E. eauto.
Qed.

Lemma ftab_get_set : forall tab f a g, ftab_get (ftab_set tab f a) g = if g =? f then Some a else ftab_get tab g.
Proof.
  induction tab as [|[k b] tab IH]; intros f a g; cbn.
  - destruct (f =? g) eqn:E, (g =? f) eqn:F; try reflexivity;
      rewrite Nat.eqb_sym in E; congruence.
  - destruct (k =? f) eqn:E.
    + apply Nat.eqb_eq in E. subst k. cbn. destruct (f =? g) eqn:G, (g =? f) eqn:F; try reflexivity;
        rewrite Nat.eqb_sym in G; congruence.
    + cbn. destruct (k =? g) eqn:G; [|apply IH]. apply Nat.eqb_eq in G. subst k. rewrite E. reflexivity.
Qed.

Definition in_range (nl : nat -> option nat) (l : located) : Prop :=
  forall n, nl (l_file l) = Some n -> l_line l <= n.

(** The table holds the things [done] entered so far. *)
Record tinv (nl : nat -> option nat) (done : list located) (tab : f2ltab) : Prop := mkTinv {
  ti_none : forall f, ftab_get tab f = None <->
     ~ exists l, In l done /\ l_file l = f /\ nl f <> None;
  ti_len : forall f a, ftab_get tab f = Some a -> exists n, nl f = Some n /\ length a = n + 1;
  ti_sound : forall f a j e, ftab_get tab f = Some a -> nth_error a j = Some (Some e) ->
     In (mkLoc f j e) done;
  ti_complete : forall f a l, ftab_get tab f = Some a -> In l done -> l_file l = f ->
     exists e, nth_error a (l_line l) = Some (Some e);
}.

Lemma tinv_init : forall nl, tinv nl [] [].
Proof.
  intros nl. constructor; cbn.
  - intros f. split; [intros _ (l & [] & _)|reflexivity].
  - discriminate.
  - discriminate.
  - discriminate.
Qed.

Lemma repeat_nth : forall n j (x y : option f2l), nth_error (repeat x n) j = Some y -> x = y.
Proof. induction n; intros [|j] x y H; cbn in H; try discriminate; [congruence|eauto]. Qed.

Lemma enter_ok : forall nl done tab l, tinv nl done tab -> in_range nl l ->
  exists tab', enter_lineno nl tab (l_file l) (l_line l) (l_what l) = Some tab'
    /\ tinv nl (done ++ [l]) tab'.
Proof.
  intros nl done tab l [T1 T2 T3 T4] Hr. unfold enter_lineno.
  destruct (nl (l_file l)) as [n|] eqn:En.
  2:{ exists tab. split; [reflexivity|]. constructor.
      - intros f. rewrite T1. split; intros H (l' & Hi & Hf & Hn); apply H.
        + apply in_app_or in Hi. destruct Hi as [Hi|[<-|[]]]; [eauto|]. congruence.
        + exists l'. split; [apply in_or_app; auto|auto].
      - exact T2.
      - intros f a j e H1 H2. apply in_or_app. left. eapply T3; eassumption.
      - intros f a l' H1 H2 H3. apply in_app_or in H2. destruct H2 as [H2|[<-|[]]]; [eapply T4; eassumption|].
        destruct (T2 _ _ H1) as (n & Hn & _). congruence. }
  set (a0 := match ftab_get tab (l_file l) with Some a => a | None => repeat None (n + 1) end).
  assert (La : length a0 = n + 1).
  { unfold a0. destruct (ftab_get tab (l_file l)) as [a|] eqn:G; [|apply repeat_length].
    destruct (T2 _ _ G) as (n' & Hn & HL). congruence. }
  destruct (la_write_ok a0 (l_line l) (l_what l)) as (a' & W).
  { specialize (Hr n En). lia. }
  rewrite W. eexists. split; [reflexivity|].
  destruct (la_write_spec _ _ _ _ W) as (W1 & W2 & W3).
  constructor.
  - intros f. rewrite ftab_get_set. destruct (f =? l_file l) eqn:E.
    + apply Nat.eqb_eq in E. subst f. split; [discriminate|]. intros H. exfalso. apply H.
      exists l. split; [apply in_or_app; right; left; reflexivity|]. split; [reflexivity|congruence].
    + apply Nat.eqb_neq in E. rewrite T1. split; intros H (l' & Hi & Hf & Hn); apply H.
      * apply in_app_or in Hi. destruct Hi as [Hi|[<-|[]]]; [eauto|]. congruence.
      * exists l'. split; [apply in_or_app; auto|auto].
  - intros f a. rewrite ftab_get_set. destruct (f =? l_file l) eqn:E; [|apply T2].
    apply Nat.eqb_eq in E. subst f. intros H. injection H as <-. exists n. split; [exact En|lia].
  - intros f a j e. rewrite ftab_get_set. destruct (f =? l_file l) eqn:E.
    + apply Nat.eqb_eq in E. subst f. intros H. injection H as <-. rewrite W3.
      destruct (j =? l_line l) eqn:J.
      * apply Nat.eqb_eq in J. subst j. intros H. injection H as <-. apply in_or_app. right. left.
        destruct l; reflexivity.
      * intros H. unfold a0 in H. destruct (ftab_get tab (l_file l)) as [a|] eqn:G.
        -- apply in_or_app. left. eapply T3; eassumption.
        -- apply repeat_nth in H. discriminate.
    + intros H1 H2. apply in_or_app. left. eapply T3; eassumption.
  - intros f a l'. rewrite ftab_get_set. destruct (f =? l_file l) eqn:E.
    + apply Nat.eqb_eq in E. subst f. intros H Hi Hf. injection H as <-. rewrite W3.
      destruct (l_line l' =? l_line l) eqn:J; [eauto|].
      apply in_app_or in Hi. destruct Hi as [Hi|[<-|[]]]; [|rewrite Nat.eqb_refl in J; discriminate].
      unfold a0. destruct (ftab_get tab (l_file l)) as [a|] eqn:G; [eapply T4; eassumption|].
      apply T1 in G. exfalso. apply G. exists l'. split; [exact Hi|]. split; [exact Hf|congruence].
    + apply Nat.eqb_neq in E. intros H Hi Hf. apply in_app_or in Hi. destruct Hi as [Hi|[<-|[]]]; [eapply T4; eassumption|].
      congruence.
Qed.

Lemma init_ok : forall nl ls done tab, tinv nl done tab -> Forall (in_range nl) ls ->
  exists tab', f2l_init nl tab ls = Some tab' /\ tinv nl (done ++ ls) tab'.
Proof.
  intros nl ls. induction ls as [|l ls IH]; intros done tab T H; cbn.
  - exists tab. rewrite app_nil_r. auto.
  - inversion H as [|? ? Hl Hls]; subst. destruct (enter_ok nl done tab l T Hl) as (tab1 & E & T1).
    rewrite E. destruct (IH _ _ T1 Hls) as (tab' & E' & T'). exists tab'. split; [exact E'|].
    rewrite <- app_assoc in T'. exact T'.
Qed.
