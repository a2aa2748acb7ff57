(** A circular intermediate file under -q: make calls itself for ever. *)
From Verif Require Import Base M_Build S_Build S_BuildExamples.
(** f: x f, and f is in .INTERMEDIATE; 1 is f and 2 is x; neither exists. *)
Definition g_loop := [[1];[2;1];[]].
Definition m_loop := mk g_loop [1] [1;2] false Ask good.
Local Notation E := (engine (m_phony m_loop) (m_target m_loop) (m_cmds m_loop) (m_blank m_loop) (m_double m_loop) (fun f => f) (fun f => [f]) (m_keep m_loop) (m_always m_loop) (m_how m_loop) (m_world m_loop)).
(** The state in which [f] is called again. *)
Definition stuck st := exists c1 c2 k u t p, s_pass st = S p /\
  s_files st 1 = mkfile [mkdep 2 false c2; mkdep 1 false c1] (Some Absent) k NoAttempt NotStarted u false true false /\
  s_files st 2 = mkfile [] (Some Absent) (S p) Question Finished false true false t.
Ltac step H1 H2 HP := unfold upd, set_updating, is_updating, file_mtime, with_updating, with_considered, with_deps, upd_all, emit, bind; cbn -[engine Nat.eqb]; cbn [Nat.eqb]; rewrite ?H1, ?H2, ?HP; cbn -[engine Nat.eqb]; cbn [Nat.eqb].
Lemma stuck_out : forall n st, stuck st -> fst (E n) 1 st = Out.
Proof.
  induction n as [|n IH]; intros st (c1 & c2 & k & u & t & p & HP & H1 & H2); [reflexivity|].
  cbn [engine fst]. unfold update_file_1. rewrite H1. cbn [f_updated f_state]. 
  destruct n as [|n].
  { do 4 step H1 H2 HP. reflexivity. }
  unfold set_updating, file_mtime. cbn [upd s_files Nat.eqb]. rewrite H1. cbn [with_updating f_mtime m_phony m_cmds m_loop mk existsb Nat.eqb orb negb andb].
  cbn [upd s_files Nat.eqb]. rewrite H1. cbn [f_deps with_updating loop1 d_file]. unfold file_mtime. cbn [upd s_files Nat.eqb]. rewrite H2. cbn [f_mtime].
  unfold is_updating. cbn [upd s_files Nat.eqb]. rewrite H2. cbn [f_updating].
  cbn [engine snd]. unfold check_dep at 1. unfold set_updating, update_file, file_mtime. cbn [upd s_files Nat.eqb with_updating f_intermediate]. rewrite H2.
  cbn [f_intermediate m_phony m_loop mk orb negb f_considered s_pass upd]. rewrite HP. rewrite Nat.eqb_refl. cbn [f_state cs_eqb bind f_status upd s_files Nat.eqb with_updating f_mtime]. rewrite H2.
  cbn [f_mtime]. cbn [bind d_order us_max us_rank Nat.ltb Nat.leb bad Nat.eqb negb andb m_keep m_loop mk app time_eqb orb newer].
  cbn [loop2 d_file upd s_files Nat.eqb with_deps with_updating f_intermediate].
  rewrite H2. cbn [f_intermediate]. rewrite H1. cbn [f_intermediate app].
  unfold update_file at 1. unfold file_mtime. cbn [upd s_files Nat.eqb with_deps with_updating with_considered f_considered f_mtime].
  rewrite H1. cbn [f_mtime f_considered]. cbn [upd s_files Nat.eqb with_deps with_updating with_considered f_considered s_pass].
  rewrite HP. cbn [Nat.eqb entries_loop].
  rewrite IH; [reflexivity|].
  eexists _, _, _, _, _, p. cbn [upd s_files Nat.eqb s_pass]. rewrite H1, H2. repeat split; reflexivity || exact HP.
Qed.
Definition absent (n : nat) := Absent.

Definition s0 : state := upd 1 (with_considered 1) (mkstate (s_files (initial (m_deps m_loop) (m_phony m_loop) (m_inter m_loop) (m_tried m_loop) absent 0)) absent [] 0 [] 1).
Definition sA : state := 
  snd (file_mtime (fun f => f) (fun f => [f]) 2 (snd (file_mtime (fun f => f) (fun f => [f]) 1 (set_updating (fun f => f) 1 true s0)))).
Lemma first : forall n, match snd (E (S (S n))) 2 Absent true sA with Ok r st => r = (Question, true) /\ stuck st | _ => False end.
Proof. intros n. vm_compute. split; [reflexivity|]. eexists _, _, _, _, _, _. repeat split; reflexivity. Qed.

Lemma top : forall one check, (match check 2 Absent true sA with Ok r st => r = (Question, true) /\ stuck st | _ => False end) ->
  (forall st, stuck st -> one 1 st = Out) -> 
  update_file_1 (m_phony m_loop) (m_target m_loop) (m_cmds m_loop) (m_blank m_loop) (m_double m_loop) (fun f => f) (fun f => [f]) (m_keep m_loop) (m_always m_loop) (m_how m_loop) (m_world m_loop) one check 1 s0 = Out.
Proof.
  intros one check F K.
  match goal with |- ?X = _ => let Y := eval hnf in X in change (Y = Out) end.
  assert (L1 : exists st, loop1 (fun f => f) (fun f => [f]) (m_keep m_loop) check 1 Absent [plain 2; plain 1] [] true Success false (snd (file_mtime (fun f => f) (fun f => [f]) 1 (set_updating (fun f => f) 1 true s0)))
    = Ok ([plain 2; plain 1], true, Question, false) st /\ stuck st).
  { cbn [loop1]. change (file_mtime (fun f => f) (fun f => [f]) (d_file (plain 2)) (snd (file_mtime (fun f => f) (fun f => [f]) 1 (set_updating (fun f => f) 1 true s0)))) with (Absent, sA). cbv iota beta.
    change (is_updating (fun f => f) (d_file (plain 2)) sA) with false. cbv iota. change (d_file (plain 2)) with 2.
    destruct (check 2 Absent true sA) as [[a b] st|st|]; [|destruct F|destruct F]. destruct F as [R ST]. injection R as -> ->.
    exists st. split; [|exact ST]. cbn [bind]. pose proof ST as (c1 & c2 & k & u & t & p & HP & H1 & H2).
    cbn [us_max bad us_rank Nat.ltb Nat.leb Nat.eqb negb andb m_keep m_loop mk app orb d_order plain existsb]. unfold busy. cbn [Nat.leb Nat.eqb]. rewrite H2. reflexivity. }
  destruct L1 as (st & L1 & ST).
  match goal with |- match ?L with _ => _ end = _ => change L with (loop1 (fun f => f) (fun f => [f]) (m_keep m_loop) check 1 Absent [plain 2; plain 1] [] true Success false (snd (file_mtime (fun f => f) (fun f => [f]) 1 (set_updating (fun f => f) 1 true s0)))) end.
  rewrite L1. cbv zeta beta iota. clear L1.
  destruct ST as (c1 & c2 & k & u & t & p & HP & H1 & H2).
  cbn [orb loop2 d_file plain upd s_files Nat.eqb with_deps f_intermediate]. rewrite H2. cbn [f_intermediate app Nat.eqb]. rewrite H1. cbn [f_intermediate with_deps].
  unfold update_file at 1. unfold file_mtime. cbn [upd s_files Nat.eqb with_deps with_updating with_considered f_considered f_mtime].
  rewrite H1. cbn [f_mtime f_considered]. cbn [upd s_files Nat.eqb with_deps with_updating with_considered f_considered s_pass].
  rewrite HP. cbn [Nat.eqb entries_loop]. rewrite K; [reflexivity|].
  eexists _, _, _, _, _, p. cbn [upd s_files Nat.eqb s_pass]. rewrite H1, H2. repeat split; reflexivity || exact HP.
Qed.
Lemma question : forall passes fuel, build m_loop absent 0 passes fuel [1] = Out.
Proof.
  intros [|passes] fuel; [reflexivity|].
  do 3 (destruct fuel as [|fuel]; [reflexivity|]).
  pose proof (top (fst (E (S (S fuel)))) (snd (E (S (S fuel)))) (first fuel) (stuck_out (S (S fuel)))) as K.
  unfold build, update_goal_chain. cbn [update_goals goals_pass goal_entries].
  match goal with |- context [reaps ?a ?b ?c ?d ?e ?f ?g ?h ?i ?j ?k] => change (reaps a b c d e f g h i j k) with (Ok tt k) end.
  cbn [bind].
  assert (Z : forall A (r : res A) B (k : A -> state -> res B), r = Out -> bind r k = Out) by (intros A r B k ->; reflexivity).
  do 3 apply Z. match goal with |- update_file _ ?a ?b ?o ?f ?st = Out => change (bind (o 1 (upd 1 (with_considered 1) st)) (fun new s => if bad new && negb false then Ok new s else if busy 1 s then Ok Success s else Ok (us_max Success new) s) = Out) end.
  apply Z. exact K.
Qed.
