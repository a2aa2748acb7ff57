(** Proofs about links. *)
From Coq Require Import Lia List.
From Verif Require Import Base M_Symlink S_Symlink.
Open Scope list_scope.
Open Scope nat_scope.

Lemma last_slash_none s : last_slash s = None <-> ~ In "/"%char s.
Proof.
  induction s as [|c s IH]; cbn [last_slash In]; [tauto|]. destruct (last_slash s) as [k|].
  - split; [discriminate|]. intros N. exfalso. apply N. right. destruct (in_dec Ascii.ascii_dec "/"%char s) as [I|I]; [exact I|]. apply IH in I. discriminate.
  - destruct (c =?c "/") eqn:E; [apply eqc_true in E; subst; split; [discriminate|intros N; exfalso; auto]|]. split; [|reflexivity]. intros _ [->|I]; [rewrite Ascii.eqb_refl in E; discriminate|]. apply IH; auto.
Qed.
Lemma last_slash_some s : forall k, last_slash s = Some k -> exists d b, s = d ++ "/"%char :: b /\ ~ In "/"%char b /\ k = length d.
Proof.
  induction s as [|c s IH]; intros k; cbn [last_slash]; [discriminate|]. destruct (last_slash s) as [j|] eqn:L.
  - intros H. injection H as <-. destruct (IH j eq_refl) as (d & b & -> & N & ->). exists (c :: d), b. auto.
  - destruct (c =?c "/") eqn:E; [|discriminate]. apply eqc_true in E. subst. intros H. injection H as <-. exists [], s. split; [reflexivity|]. split; [apply last_slash_none; exact L|reflexivity].
Qed.
Lemma starts x : (exists y, x = "/"%char :: y) \/ (forall y, x <> "/"%char :: y).
Proof. destruct x as [|c x]; [right; discriminate|]. destruct (Ascii.ascii_dec c "/") as [->|N]; [left; eauto|right; intros y H; congruence]. Qed.
Lemma step_other pmax p x : (forall y, x <> "/"%char :: y) ->
  step pmax p x = match last_slash p with None => Some x | Some k => if pmax <? k + length x + 2 then None else Some (firstn (S k) p ++ x) end.
Proof. intros N. unfold step. destruct x as [|c x]; [reflexivity|]. destruct c as [[] [] [] [] [] [] [] []]; try reflexivity. destruct (N x eq_refl). Qed.
Lemma firstn_dir (d b : str) c : firstn (S (length d)) (d ++ c :: b) = d ++ [c].
Proof. induction d as [|a d IH]; [reflexivity|]. cbn [List.length app]. cbn [firstn]. f_equal. exact IH. Qed.
(** One step, for a text that is short. *)
Lemma step_leads pmax p x : length x < pmax -> exists q, leads p x q /\ ((length q < pmax /\ step pmax p x = Some q) \/ (pmax <= length q /\ step pmax p x = None)).
Proof.
  intros SH. destruct (starts x) as [[y ->]|N]; [exists ("/"%char :: y); split; [apply ld_root|left; split; [exact SH|reflexivity]]|]. rewrite (step_other pmax p x N). destruct (last_slash p) as [k|] eqn:L.
  - destruct (last_slash_some _ _ L) as (d & b & -> & NB & ->). exists (d ++ "/"%char :: x). split; [apply ld_beside; assumption|]. rewrite firstn_dir, <- app_assoc. cbn [app]. rewrite app_length. cbn [List.length]. destruct (Nat.ltb_spec pmax (length d + length x + 2)); [right|left]; (split; [lia|reflexivity]).
  - exists x. split; [apply ld_here; apply last_slash_none; exact L|left; auto].
Qed.
Lemma tail_unique (d d' b b' : str) : ~ In "/"%char b -> ~ In "/"%char b' -> d ++ "/"%char :: b = d' ++ "/"%char :: b' -> d = d'.
Proof.
  intros N N'. revert d'. induction d as [|c d IH]; intros [|c' d'] H; cbn [app] in H; try reflexivity.
  - injection H as <- ->. exfalso. apply N. apply in_or_app. right. left. reflexivity.
  - injection H as -> <-. exfalso. apply N'. apply in_or_app. right. left. reflexivity.
  - injection H as -> H. f_equal. auto.
Qed.
Lemma leads_unique p x q r : leads p x q -> leads p x r -> q = r.
Proof.
  intros A B. inversion A as [? ? | ? ? NA | d b ? NB NX]; subst; inversion B as [? ? | ? ? NA' | d' b' ? NB' NX' EQ]; subst; try reflexivity; try (exfalso; match goal with N : forall y, _ <> _ |- _ => eapply N; reflexivity end).
  - exfalso. apply NA. apply in_or_app. right. left. reflexivity.
  - exfalso. apply NA'. apply in_or_app. right. left. reflexivity.
  - f_equal. eapply tail_unique; [| |symmetry; exact EQ]; assumption.
Qed.
Lemma newest_cons m t l r : newest r ((if m <? t then t else m) :: l) -> newest r (m :: t :: l).
Proof.
  intros [I U]. split.
  - destruct I as [I|I]; [|right; right; exact I]. destruct (m <? t); [right; left; exact I|left; exact I].
  - intros x [<- | [<-|X]]; [| |apply U; right; exact X]; (assert (Q : (if m <? t then t else m) <= r) by (apply U; left; reflexivity)); destruct (Nat.ltb_spec m t); lia.
Qed.
(** What the loop gives. *)
Lemma walk_newest lstat pmax : short lstat pmax -> forall n p m r ms, walk lstat pmax n p m = Value r ms -> exists l, hops lstat pmax p l /\ newest r (m :: map snd l) /\ length ms <= 1.
Proof.
  intros SH. induction n as [|n IH]; intros p m r ms H; [discriminate|]. cbn [walk] in H.
  assert (ONE : forall z, newest z [z]) by (intros z; split; [left; reflexivity|intros x [<-|[]]; lia]).
  destruct (lstat p) as [| | |t [x|]] eqn:L; try (injection H as <- <-; exists []; split; [apply hp_end; intros; congruence|split; [apply ONE|cbn; lia]]).
  - pose proof (SH _ _ _ L) as LX. rewrite firstn_all2 in H by lia. destruct (step_leads pmax p x LX) as (q & LD & [[LQ E]|[LQ E]]); rewrite E in H.
    + destruct (pmax <? length q); [discriminate|]. destruct (IH _ _ _ _ H) as (l & HO & NW & LM). exists ((p, t) :: l). split; [eapply hp_next; eauto|]. split; [apply newest_cons; exact NW|exact LM].
    + injection H as <- <-. exists [(p, t)]. split; [eapply hp_long; eauto|]. split; [apply newest_cons; apply ONE|cbn; lia].
  - injection H as <- <-. exists [(p, t)]. split; [apply hp_stuck; exact L|]. split; [apply newest_cons; apply ONE|cbn; lia].
Qed.
(** It ends if the links do, after as many steps. *)
Lemma walk_ends lstat pmax p l : short lstat pmax -> hops lstat pmax p l -> forall n m, length l < n -> exists r ms, walk lstat pmax n p m = Value r ms.
Proof.
  intros SH. induction 1 as [p N | p t L | p t x q L LD LQ | p t x q l L LD LQ HO IH]; intros [|n] m G; try (cbn [List.length] in G; lia); cbn [walk].
  - destruct (lstat p) as [| | |t x] eqn:L; eauto. destruct (N t x eq_refl).
  - rewrite L. eauto.
  - rewrite L, firstn_all2 by (pose proof (SH _ _ _ L); lia). destruct (step_leads pmax p x (SH _ _ _ L)) as (q' & LD' & X). rewrite (leads_unique _ _ _ _ LD' LD) in X. destruct X as [[Q _]|[_ ->]]; [lia|eauto].
  - rewrite L, firstn_all2 by (pose proof (SH _ _ _ L); lia). destruct (step_leads pmax p x (SH _ _ _ L)) as (q' & LD' & X). rewrite (leads_unique _ _ _ _ LD' LD) in X. destruct X as [[_ ->]|[Q _]]; [|lia].
    replace (pmax <? length q) with false by (symmetry; apply Nat.ltb_ge; lia). apply IH. cbn [List.length] in G. lia.
Qed.
