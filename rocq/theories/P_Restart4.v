(** The order of the calls. *)
From Coq Require Import Lia.
From Verif Require Import Base M_Flags M_Restart S_Restart P_Restart2.
Open Scope list_scope.
Open Scope nat_scope.

Lemma sub_refl {A} (l : list A) : sub l l.
Proof. induction l; constructor; auto. Qed.
Lemma sub_app {A} (a b c d : list A) : sub a b -> sub c d -> sub (a ++ c) (b ++ d).
Proof. induction 1 as [l | x s l H IH | x s l H IH]; intros S; cbn [app]; [|apply sub_take; auto|apply sub_skip; auto]. induction l; cbn [app]; auto. apply sub_skip. auto. Qed.
Lemma sub_prefix {A} (a b c : list A) : sub a b -> sub a (b ++ c).
Proof. intros H. rewrite <- (app_nil_r a). apply sub_app; [exact H|apply sub_nil]. Qed.
Lemma sub_after {A} (a b c : list A) : sub a c -> sub a (b ++ c).
Proof. intros H. change a with ([] ++ a). apply sub_app; [apply sub_nil|exact H]. Qed.
Lemma sub_in {A} (a b : list A) x : sub a b -> In x a -> In x b.
Proof. induction 1 as [l | y s l H IH | y s l H IH]; intros I; [destruct I|destruct I as [<-|I]; [left; reflexivity|right; auto]|right; auto]. Qed.
Lemma sub_trans {A} (b c : list A) : sub b c -> forall a, sub a b -> sub a c.
Proof.
  induction 1 as [l | y s l H IH | y s l H IH]; intros a S; [inversion S; subst; apply sub_nil| |apply sub_skip; auto].
  inversion S as [| ? ? ? S' | ? ? ? S']; subst; [apply sub_nil|apply sub_take; auto|apply sub_skip; auto].
Qed.
Lemma sub_nodup {A} (a b : list A) : sub a b -> NoDup b -> NoDup a.
Proof. induction 1 as [l | y s l H IH | y s l H IH]; intros N; [constructor| |]; inversion N; subst; auto. constructor; auto. intros I. apply (sub_in _ _ _ H) in I. auto. Qed.

(** Goals but for the mark. *)
Definition kg (g : goal) : nat * list (nat * bool) := (g_id g, g_entries g).
Lemma calls_kg l : calls l = flat_map (fun p => map (fun x => (fst p, fst x, snd x)) (snd p)) (map kg l).
Proof. induction l as [| g l IH]; [reflexivity|]. cbn [map flat_map]. rewrite <- IH. reflexivity. Qed.
Lemma ids_kg l : ids l = map fst (map kg l).
Proof. unfold ids. rewrite map_map. reflexivity. Qed.
Lemma sub_flat {A B} (f : A -> list B) a b : sub a b -> sub (flat_map f a) (flat_map f b).
Proof. induction 1 as [l | y s l H IH | y s l H IH]; cbn [flat_map]; [apply sub_nil|apply sub_app; [apply sub_refl|exact IH]|apply sub_after; exact IH]. Qed.
Lemma sub_map {A B} (f : A -> B) a b : sub a b -> sub (map f a) (map f b).
Proof. induction 1; cbn [map]; constructor; auto. Qed.

Section Chain.
  Variable rb keep : bool.
  Variable user : modes.
  Variable upd : list event -> nat -> modes -> obs.
  Notation entries_loop := (entries_loop rb keep user upd).
  Notation pass := (pass rb keep user upd).
  Notation chain := (chain rb keep user upd).
  Notation honest := (honest upd).

  Lemma honest_cons e h : honest h -> e_obs e = upd h (e_file e) (e_modes e) -> honest (e :: h).
  Proof. intros H E h1 x h2 Q. destruct h1 as [| y h1]; injection Q as <- ->; [exact E|]. eapply H; reflexivity. Qed.
  Lemma entries_order g : forall l status h changed any status' h' changed' stop any', entries_loop g l status h changed any = (status', h', changed', stop, any') ->
    exists p, h' = rev p ++ h /\ sub (map call_of p) (map (fun x => (g_id g, fst x, snd x)) l) /\ (honest h -> honest h') /\ (any' = true -> any = true \/ exists e, In e p /\ o_updated (e_obs e) = false) /\ Forall (fun e => e_goal e = g) p.
  Proof.
    induction l as [| [f cmd] l IH]; intros status h changed any status' h' changed' stop any' H; cbn [M_Restart.entries_loop] in H.
    { injection H as <- <- <- <- <-. exists []. split; [reflexivity|]. split; [apply sub_nil|]. auto. }
    set (k := modes_for rb user cmd) in *. set (o := upd h f k) in *. set (e := mkevent g f cmd k o) in *.
    match type of H with (let '(_, _) := ?x in _) = _ => destruct x as [st1 stop1] eqn:E end. clear E. destruct stop1.
    - injection H as <- <- <- <- <-. exists [e]. split; [reflexivity|]. split; [apply sub_take, sub_nil|]. split; [intros HH; apply honest_cons; auto|]. split; [|constructor; auto]. intros A. apply orb_true_iff in A. destruct A as [A|A]; [auto|right]. exists e. split; [left; reflexivity|]. apply negb_true_iff. exact A.
    - apply IH in H. destruct H as (p & -> & H1 & H2 & H3 & H4). exists (e :: p). split; [cbn [rev]; rewrite <- app_assoc; reflexivity|]. split; [apply sub_take; exact H1|]. split; [intros HH; apply H2, honest_cons; auto|]. split; [|constructor; auto].
      intros A. destruct (H3 A) as [B | (x & I & B)]; [|right; exists x; cbn; auto]. apply orb_true_iff in B. destruct B as [B|B]; [auto|right]. exists e. split; [left; reflexivity|]. apply negb_true_iff. exact B.
  Qed.
  Lemma pass_order : forall l kept status h l' status' h', pass kept l status h = (l', status', h') ->
    exists p l2, h' = rev p ++ h /\ l' = rev kept ++ l2 /\ sub (map call_of p) (calls l) /\ sub (map kg l2) (map kg l) /\ (honest h -> honest h') /\ Forall (fun e => In (g_id (e_goal e)) (ids l)) p /\
      (NoDup (ids l) -> forall g e, In g l2 -> In e p -> g_id g = g_id (e_goal e) -> exists x, In x p /\ g_id (e_goal x) = g_id (e_goal e) /\ o_updated (e_obs x) = false).
  Proof.
    induction l as [| g l IH]; intros kept status h l' status' h' H; cbn [M_Restart.pass] in H.
    { injection H as <- <- <-. exists [], []. rewrite app_nil_r. repeat split; auto; try apply sub_nil. intros _ g e []. }
    destruct (entries_loop g (g_entries g) status h (g_changed g) false) as [[[[st1 h1] ch1] stop] any] eqn:E. apply entries_order in E. destruct E as (q & -> & E1 & E2 & E3 & E4).
    assert (QID : Forall (fun e => In (g_id (e_goal e)) (ids (g :: l))) q) by (eapply Forall_impl; [|exact E4]; intros e ->; left; reflexivity).
    assert (QG : forall e, In e q -> e_goal e = g) by (apply Forall_forall; exact E4).
    assert (SG : forall x y, NoDup (ids (x :: l)) -> In y l -> g_id y = g_id x -> False).
    { intros x y N I Q. inversion N as [| ? ? N1 N2]. apply N1. unfold ids. rewrite <- Q. apply in_map. exact I. }
    assert (IDS : forall l2 y, sub (map kg l2) (map kg l) -> In y l2 -> In (g_id y) (ids l)).
    { intros l2 y S I. rewrite ids_kg. change (g_id y) with (fst (kg y)). apply in_map. eapply sub_in; [exact S|]. apply in_map. exact I. }
    destruct stop; [|destruct any]; cbn [negb] in H.
    - injection H as <- <- <-. exists q, l. split; [reflexivity|]. split; [reflexivity|]. split; [unfold calls; cbn [flat_map]; apply sub_prefix; exact E1|]. split; [apply sub_skip, sub_refl|]. split; [exact E2|]. split; [exact QID|].
      intros N y e I J Q. exfalso. rewrite (QG e J) in Q. eapply SG; eauto.
    - apply IH in H. destruct H as (p & l2 & -> & -> & H1 & H2 & H3 & H4 & H5). exists (q ++ p), (mkgoal (g_id g) (g_entries g) (g_dontcare g) ch1 :: l2). split; [rewrite rev_app_distr, <- app_assoc; reflexivity|]. split; [cbn [rev]; rewrite <- app_assoc; reflexivity|].
      split; [rewrite map_app; unfold calls; cbn [flat_map]; apply sub_app; [exact E1|exact H1]|]. split; [apply (sub_take (kg g)); exact H2|]. split; [auto|].
      split; [apply Forall_app; split; [exact QID|]; eapply Forall_impl; [|exact H4]; intros e I; right; exact I|].
      rewrite Forall_forall in H4. intros N y e I J Q. apply in_app_iff in J. destruct I as [<- | I].
      + cbn [g_id] in Q. destruct J as [J | J].
        * destruct (E3 eq_refl) as [X | (x & X1 & X2)]; [discriminate|]. exists x. split; [apply in_or_app; auto|]. split; [rewrite (QG x X1); exact Q|exact X2].
        * exfalso. specialize (H4 e J). unfold ids in H4. apply in_map_iff in H4. destruct H4 as (z & Z1 & Z2). apply (SG g z N Z2). congruence.
      + destruct J as [J | J].
        * exfalso. rewrite (QG e J) in Q. inversion N as [| ? ? N1 N2]. apply N1. unfold ids in IDS. rewrite <- Q. eapply IDS; eauto.
        * inversion N as [| ? ? N1 N2]. destruct (H5 N2 y e I J Q) as (w & X1 & X2). exists w. split; [apply in_or_app; auto|exact X2].
    - apply IH in H. destruct H as (p & l2 & -> & -> & H1 & H2 & H3 & H4 & H5). exists (q ++ p), l2. split; [rewrite rev_app_distr, <- app_assoc; reflexivity|]. split; [reflexivity|].
      split; [rewrite map_app; unfold calls; cbn [flat_map]; apply sub_app; [exact E1|exact H1]|]. split; [apply sub_skip; exact H2|]. split; [auto|].
      split; [apply Forall_app; split; [exact QID|]; eapply Forall_impl; [|exact H4]; intros e I; right; exact I|].
      intros N y e I J Q. apply in_app_iff in J. inversion N as [| ? ? N1 N2]. destruct J as [J | J].
      + exfalso. rewrite (QG e J) in Q. apply N1. unfold ids in IDS. rewrite <- Q. eapply IDS; eauto.
      + destruct (H5 N2 y e I J Q) as (w & X1 & X2). exists w. split; [apply in_or_app; auto|exact X2].
  Qed.
  Lemma chain_order n : forall l status h status' h', chain n l status h = Some (status', h') -> NoDup (ids l) ->
    exists ps, h' = rev (concat ps) ++ h /\ length ps <= n /\ Forall (fun p => sub (map call_of p) (calls l)) ps /\ (honest h -> honest h') /\ no_repeat ps /\ Forall (Forall (fun e => In (g_id (e_goal e)) (ids l))) ps.
  Proof.
    induction n as [| n IH]; intros l status h status' h' H ND; (destruct l as [| g l]; cbn [M_Restart.chain] in H; [injection H as <- <-; exists []; split; [reflexivity|]; split; [cbn; lia|]; split; [constructor|]; split; [auto|]; split; [intros a; destruct a; discriminate|constructor]|]); [discriminate|].
    destruct (pass [] (g :: l) status h) as [[l1 st1] h1] eqn:P. apply pass_order in P. destruct P as (p & l2 & -> & -> & P1 & P2 & P3 & P4 & P5). cbn [rev app] in H.
    assert (ND2 : NoDup (ids l2)) by (rewrite ids_kg in *; eapply sub_nodup; [apply sub_map; exact P2|exact ND]).
    assert (INC : forall i, In i (ids l2) -> In i (ids (g :: l))) by (intros i I; rewrite ids_kg in *; eapply sub_in; [apply sub_map; exact P2|exact I]).
    apply IH in H; auto. destruct H as (ps & -> & H1 & H2 & H3 & H4 & H5). exists (p :: ps). split; [cbn [concat]; rewrite rev_app_distr, <- app_assoc; reflexivity|]. split; [cbn [length]; lia|].
    split; [constructor; [exact P1|]; eapply Forall_impl; [|exact H2]; intros x S; eapply sub_trans; [|exact S]; rewrite !calls_kg; apply sub_flat; exact P2|]. split; [auto|]. split.
    - intros a x b y c e e' Q I J G. destruct a as [| z a]; cbn [app] in Q; injection Q as <- ->.
      + rewrite Forall_forall in H5. specialize (H5 y ltac:(apply in_or_app; right; left; reflexivity)). rewrite Forall_forall in H5. specialize (H5 e' J). unfold ids in H5. apply in_map_iff in H5. destruct H5 as (w & W1 & W2). apply (P5 ND w e W2 I). congruence.
      + eapply H4; eauto.
    - constructor; [exact P4|]. eapply Forall_impl; [|exact H5]. intros x F. eapply Forall_impl; [|exact F]. intros e. apply INC.
  Qed.

  (** *** The end *)
  Variable m : nat.
  Hypothesis settled : forall h f k, m <= length h -> o_updated (upd h f k) = true.
  Lemma entries_grow g : forall l status h changed any status' h' changed' stop any', entries_loop g l status h changed any = (status', h', changed', stop, any') ->
    length h <= length h' /\ (any' = true -> any = true \/ (length h < length h' /\ length h < m)).
  Proof.
    induction l as [| [f cmd] l IH]; intros status h changed any status' h' changed' stop any' H; cbn [M_Restart.entries_loop] in H.
    { injection H as <- <- <- <- <-. auto. }
    set (k := modes_for rb user cmd) in *. set (o := upd h f k) in *. set (e := mkevent g f cmd k o) in *.
    match type of H with (let '(_, _) := ?x in _) = _ => destruct x as [st1 stop1] eqn:E end. clear E.
    assert (U : o_updated o = false -> length h < m) by (intros U; destruct (le_lt_dec m (length h)) as [L|L]; [|exact L]; unfold o in U; rewrite (settled h f k L) in U; discriminate).
    destruct stop1.
    - injection H as <- <- <- <- <-. cbn [length]. split; [lia|]. intros A. apply orb_true_iff in A. destruct A as [A|A]; [auto|]. apply negb_true_iff in A. right. split; [lia|auto].
    - apply IH in H. destruct H as (H1 & H2). cbn [length] in *. split; [lia|]. intros A. destruct (H2 A) as [B|B]; [|right; lia]. apply orb_true_iff in B. destruct B as [B|B]; [auto|]. apply negb_true_iff in B. right. split; [lia|auto].
  Qed.
  Lemma pass_shrink : forall l kept status h l' status' h', pass kept l status h = (l', status', h') ->
    length h <= length h' /\ length l' <= length kept + length l /\ (l <> [] -> length l' < length kept + length l \/ (length h < length h' /\ length h < m)).
  Proof.
    induction l as [| g l IH]; intros kept status h l' status' h' H; cbn [M_Restart.pass] in H.
    { injection H as <- <- <-. rewrite rev_length. cbn. split; [lia|]. split; [lia|]. congruence. }
    destruct (entries_loop g (g_entries g) status h (g_changed g) false) as [[[[st1 h1] ch1] stop] any] eqn:E. apply entries_grow in E. destruct E as (E1 & E2).
    destruct stop; [|destruct any]; cbn [negb] in H.
    - injection H as <- <- <-. rewrite app_length, rev_length. cbn [length]. split; [lia|]. split; [lia|]. intros _. left. lia.
    - apply IH in H. destruct H as (H1 & H2 & H3). cbn [length] in *. split; [lia|]. split; [lia|]. intros _. destruct (E2 eq_refl) as [X|X]; [discriminate|]. right. lia.
    - apply IH in H. destruct H as (H1 & H2 & H3). cbn [length] in *. split; [lia|]. split; [lia|]. intros _. left. lia.
  Qed.
  Lemma chain_ends n : forall l status h, (m - length h) + length l <= n -> chain n l status h <> None.
  Proof.
    induction n as [| n IH]; intros l status h L; (destruct l as [| g l]; [discriminate|]); [cbn [length] in L; lia|]. cbn [M_Restart.chain].
    destruct (pass [] (g :: l) status h) as [[l1 st1] h1] eqn:P. apply pass_shrink in P. destruct P as (P1 & P2 & P3). specialize (P3 ltac:(discriminate)). cbn [length] in *. apply IH. lia.
  Qed.
End Chain.
