(** Proofs about define ... endef. *)
From Coq Require Import Lia String List.
From Verif Require Import Base M_Quote S_Quote P_Quote M_Text S_Text P_Text M_Desc S_Desc P_Desc M_Define S_Define.
Open Scope string_scope.
Open Scope list_scope.
Open Scope nat_scope.

Lemma after_spec w : forall p r, after w p = Some r <-> p = w ++ r.
Proof.
  induction w as [|a w IH]; intros p r; cbn [after app]; [split; congruence|]. destruct p as [|b p]; [split; discriminate|]. destruct (Ascii.eqb_spec a b) as [->|N]; [rewrite IH; split; congruence|]. split; [discriminate|congruence].
Qed.
Lemma word_spec w p r : word w p = Some r <-> p = w ++ r /\ (r = [] \/ exists c t, r = c :: t /\ isblank c = true).
Proof.
  unfold word. destruct (after w p) as [q|] eqn:A.
  - apply after_spec in A. subst p. destruct q as [|c q].
    + split; [intros H; injection H as <-; auto|]. intros [E _]. apply app_inv_head in E. unfold str in *. congruence.
    + destruct (isblank c) eqn:B; split.
      * intros H. injection H as <-. eauto 6.
      * intros [E _]. apply app_inv_head in E. unfold str in *. congruence.
      * discriminate.
      * intros [E [->|(c' & t & -> & B')]]; apply app_inv_head in E; unfold str in *; congruence.
  - split; [discriminate|]. intros [E _]. apply after_spec in E. congruence.
Qed.
Lemma starts_next prefix a w line r : isspace a = false -> (starts prefix (a :: w) line r <-> (forall c t, line = c :: t -> c <> prefix) /\ word (a :: w) (next_token line) = Some r).
Proof.
  intros A. unfold starts. rewrite word_spec. split.
  - intros ((sp & SP & ->) & P & R). split; [exact P|]. split; [|exact R]. rewrite next_token_space by exact SP. apply next_token_stop. exact A.
  - intros (P & E & R). split; [|auto]. destruct (next_token_spec line) as (sp & SP & L & _). exists sp. rewrite <- E. auto.
Qed.
Lemma kind_spec prefix line : match kind_of prefix line with
                              | Opens => opens prefix line /\ ~ closes prefix line
                              | Closes r => starts prefix (s2l "endef") line r /\ ~ opens prefix line
                              | Plain => ~ opens prefix line /\ ~ closes prefix line
                              end.
Proof.
  unfold opens, closes. change (s2l "define") with ("d"%char :: s2l "efine"). change (s2l "endef") with ("e"%char :: s2l "ndef").
  destruct line as [|c line].
  - cbn [kind_of]. split; intros (r & (sp & _ & E) & _); destruct sp; discriminate.
  - cbn [kind_of]. destruct (Ascii.eqb_spec c prefix) as [->|N].
    + split; intros (r & _ & P & _); exact (P _ _ eq_refl eq_refl).
    + assert (P : forall d t, c :: line = d :: t -> d <> prefix) by (intros d t E; injection E as <- _; exact N).
      change (s2l "define") with ("d"%char :: s2l "efine"). change (s2l "endef") with ("e"%char :: s2l "ndef").
      destruct (word ("d"%char :: s2l "efine") (next_token (c :: line))) as [r|] eqn:W.
      * split; [exists r; apply starts_next; auto|]. intros (r' & H). apply starts_next in H; [|reflexivity]. destruct H as [_ H]. apply word_spec in H, W. destruct H as [H _], W as [W _]. rewrite W in H. discriminate.
      * destruct (word ("e"%char :: s2l "ndef") (next_token (c :: line))) as [r|] eqn:V.
        { split; [apply starts_next; auto|]. intros (r' & H). apply starts_next in H; [|reflexivity]. destruct H as [_ H]. congruence. }
        { split; intros (r' & H); (apply starts_next in H; [|reflexivity]); destruct H as [_ H]; congruence. }
Qed.
Lemma starts_unique prefix line r r' : starts prefix (s2l "endef") line r -> starts prefix (s2l "endef") line r' -> r = r'.
Proof. change (s2l "endef") with ("e"%char :: s2l "ndef"). intros A B. apply starts_next in A, B; try reflexivity. destruct A as [_ A], B as [_ B]. congruence. Qed.

Lemma skip_ref_keeps o cl : forall s d rp rp' r, M_Quote.skip_ref o cl d rp s = (rp', r) -> rev rp' ++ r = rev rp ++ s /\ length r <= length s /\ incl r s.
Proof.
  induction s as [|c s IH]; intros d rp rp' r H; cbn [M_Quote.skip_ref] in H; [injection H as <- <-; split; [reflexivity|]; split; [lia|apply incl_refl]|].
  assert (G : forall d, M_Quote.skip_ref o cl d (c :: rp) s = (rp', r) -> rev rp' ++ r = rev rp ++ c :: s /\ length r <= length (c :: s) /\ incl r (c :: s)).
  { intros d' H'. destruct (IH _ _ _ _ H') as (A & B & C). split; [rewrite A; cbn [rev]; rewrite <- app_assoc; reflexivity|]. split; [cbn [length]; lia|]. intros x X. right. apply C. exact X. }
  destruct (c =?c o); [eapply G; eauto|]. destruct (c =?c cl); [|eapply G; eauto]. destruct d as [|d]; [|eapply G; eauto]. injection H as <- <-. cbn [rev]. rewrite <- app_assoc. split; [reflexivity|]. split; [cbn [length]; lia|]. intros x X. right. exact X.
Qed.
Lemma uncomment_none s : ~ In (ascii_of_nat 35) s -> uncomment s = Some s.
Proof.
  intros N. unfold uncomment, find_map_unquote. assert (G : forall n s rp, length s < n -> ~ In (ascii_of_nat 35) s -> find_map_unquote_loop is_hash true n rp s = Some (mkfound (rev rp ++ s) None)).
  { clear. induction n as [|n IH]; intros s rp L N; [lia|]. cbn [find_map_unquote_loop]. destruct s as [|c s]; [rewrite app_nil_r; reflexivity|]. cbn [length] in L. cbn [andb]. destruct (c =?c c_dollar).
    - destruct s as [|o s]; [reflexivity|]. cbn [length] in L. destruct ((o =?c c_lparen) || (o =?c c_lbrace)).
      + destruct (M_Quote.skip_ref o (if o =?c c_lparen then c_rparen else c_rbrace) 0 (o :: c :: rp) s) as [rp' r] eqn:E. destruct (skip_ref_keeps _ _ _ _ _ _ _ E) as (A & B & C). rewrite IH; [|lia|intros X; apply N; right; right; apply C; exact X]. rewrite A. cbn [rev]. rewrite <- !app_assoc. reflexivity.
      + rewrite IH; [|lia|intros X; apply N; right; right; exact X]. cbn [rev]. rewrite <- !app_assoc. reflexivity.
    - assert (H : is_hash c = false) by (unfold is_hash; apply Ascii.eqb_neq; intros ->; apply N; left; reflexivity). rewrite H. rewrite IH; [|lia|intros X; apply N; right; exact X]. cbn [rev]. rewrite <- app_assoc. reflexivity. }
  rewrite G by (auto; lia). reflexivity.
Qed.
Lemma uncomment_total s : exists q, uncomment s = Some q.
Proof. unfold uncomment, find_map_unquote. destruct (find_comment s (S (length s)) [] ltac:(lia)) as (f & -> & _). eexists. reflexivity. Qed.

Definition well (b : buffer) : Prop := b_length b <= b_size b.
Lemma add_line_well b l : well b -> exists b', add_line b l = Some b' /\ well b' /\ b_text b' = b_text b ++ l ++ [c_nl].
Proof.
  intros W. unfold add_line, well in *. set (k := length (b_text b) + length l). destruct (b_length b <? k + 1) eqn:E.
  - assert (X : (k + 1 <=? k * 2 + 1) = true) by (apply Nat.leb_le; lia). rewrite X. eexists. split; [reflexivity|]. cbn. split; [lia|reflexivity].
  - apply Nat.ltb_ge in E. assert (X : (k + 1 <=? b_size b) = true) by (apply Nat.leb_le; lia). rewrite X. eexists. split; [reflexivity|]. cbn. split; [lia|reflexivity].
Qed.

(** From level [n] to level [m], never below 1. *)
Inductive run (prefix : ascii) : nat -> list str -> nat -> Prop :=
| run_nil n : run prefix n [] n
| run_line n l ls m : ~ opens prefix l -> ~ closes prefix l -> run prefix n ls m -> run prefix n (l :: ls) m
| run_open n l ls m : opens prefix l -> run prefix (S n) ls m -> run prefix n (l :: ls) m
| run_close n l ls m : closes prefix l -> run prefix (S n) ls m -> run prefix (S (S n)) (l :: ls) m.
Lemma run_app prefix n a m b k : run prefix n a m -> run prefix m b k -> run prefix n (a ++ b) k.
Proof. induction 1; cbn [app]; intros R; [exact R|apply run_line; auto|apply run_open; auto|apply run_close; auto]. Qed.
Lemma balanced_run prefix ls : balanced prefix ls -> forall n, run prefix (S n) ls (S n).
Proof.
  induction 1 as [|l ls A B _ IH|d b e ls A _ IHb C _ IHl]; intros n; [apply run_nil|apply run_line; auto|]. apply run_open; [exact A|]. eapply run_app; [apply IHb|]. apply run_close; [exact C|apply IHl].
Qed.
Fixpoint pieces (prefix : ascii) (k : nat) (ls : list str) : Prop :=
  match k with 0 => balanced prefix ls | S k' => exists a e b, ls = a ++ e :: b /\ balanced prefix a /\ closes prefix e /\ pieces prefix k' b end.
Lemma run_pieces prefix n ls m : run prefix n ls m -> m = 1 -> forall k, n = S k -> pieces prefix k ls.
Proof.
  induction 1 as [n|n l ls m A B R IH|n l ls m A R IH|n l ls m A R IH]; intros M k K; subst.
  - injection K as <-. apply bal_nil.
  - specialize (IH eq_refl k eq_refl). destruct k as [|k]; cbn [pieces] in *; [apply bal_line; auto|]. destruct IH as (a & e & b & -> & X & Y & Z). exists (l :: a), e, b. split; [reflexivity|]. split; [apply bal_line; auto|auto].
  - specialize (IH eq_refl (S k) eq_refl). cbn [pieces] in IH. destruct IH as (a & e & b & -> & X & Y & Z). destruct k as [|k]; cbn [pieces] in *; [apply bal_block; auto|]. destruct Z as (a' & e' & b' & -> & X' & Y' & Z'). exists (l :: a ++ e :: a'), e', b'. split; [cbn [app]; rewrite <- app_assoc; reflexivity|]. split; [apply bal_block; auto|auto].
  - injection K as <-. specialize (IH eq_refl n eq_refl). cbn [pieces]. exists [], l, ls. split; [reflexivity|]. split; [apply bal_nil|auto].
Qed.
Lemma run_balanced prefix ls : run prefix 1 ls 1 <-> balanced prefix ls.
Proof. split; [intros R; exact (run_pieces _ _ _ _ R eq_refl 0 eq_refl)|intros B; apply balanced_run; exact B]. Qed.

Fixpoint ended (ls : list str) : str := match ls with [] => [] | l :: ls' => l ++ [c_nl] ++ ended ls' end.
Lemma ended_joined ls : removelast (ended ls) = joined ls.
Proof.
  induction ls as [|l ls IH]; [reflexivity|]. cbn [ended joined]. destruct ls as [|l' ls]; [cbn [ended]; rewrite app_nil_r; apply removelast_last|]. rewrite removelast_app by discriminate. f_equal.
  change ([c_nl] ++ ended (l' :: ls)) with (c_nl :: ended (l' :: ls)). assert (N : ended (l' :: ls) <> []) by (cbn [ended]; destruct l'; discriminate). cbn [removelast]. destruct (ended (l' :: ls)) eqn:E; [congruence|]. rewrite <- IH. reflexivity.
Qed.
Section Body.
  Variables (posix : bool) (prefix : ascii).
  Let c := collapse_continuations posix.
  (** What a line becomes, and whether it is complained about. *)
  Inductive kept : str -> str -> nat -> Prop :=
  | k_same l : ~ closes prefix l -> kept l l 0
  | k_closes sp r q l : starts prefix (s2l "endef") l r -> l = sp ++ r -> uncomment r = Some q -> kept l (sp ++ q) (match next_token q with [] => 0 | _ => 1 end).
  Inductive kepts : list str -> list str -> nat -> Prop :=
  | ks_nil : kepts [] [] 0
  | ks_cons l k w ls ks w' : kept l k w -> kepts ls ks w' -> kepts (l :: ls) (k :: ks) (w + w').
  Lemma closes_split l r : starts prefix (s2l "endef") l r -> l = firstn (length l - length r) l ++ r.
  Proof.
    intros ((sp & _ & ->) & _). rewrite !app_length. replace (length sp + (length (s2l "endef") + length r) - length r) with (length (sp ++ s2l "endef")) by (rewrite app_length; lia). rewrite app_assoc, firstn_app, firstn_all, Nat.sub_diag. cbn [firstn]. rewrite app_nil_r. reflexivity.
  Qed.
  Lemma body_ends : forall lines n b w, well b ->
    match body posix prefix (S n) b w lines with
    | Value v rest w' => exists ls e ks k wk we, lines = ls ++ e :: rest /\ run prefix (S n) (map c ls) 1 /\ closes prefix (c e) /\ kepts (map c ls) ks wk /\ kept (c e) k we /\ v = removelast (b_text b ++ ended ks) /\ w' = w + wk + we
    | Missing => forall ls e rest, lines = ls ++ e :: rest -> run prefix (S n) (map c ls) 1 -> ~ closes prefix (c e)
    | Overflow | NoFuel => False
    end.
  Proof.
    induction lines as [|l lines IH]; intros n b w W; cbn [body].
    - intros [|? ls] e rest E; discriminate.
    - fold (c l). pose proof (kind_spec prefix (c l)) as KS. destruct (kind_of prefix (c l)) as [|r|].
      + destruct KS as [O NC]. destruct (add_line_well b (c l) W) as (b' & -> & W' & T). specialize (IH (S n) b' w W'). destruct (body _ _ _ _ _ lines) as [v rest w'| | |]; auto.
        * destruct IH as (ls & e & ks & k & wk & we & -> & R & C & K & KE & -> & ->). exists (l :: ls), e, (c l :: ks), k, (0 + wk), we. split; [reflexivity|]. split; [apply run_open; auto|]. split; [exact C|]. split; [apply ks_cons; [apply k_same; exact NC|exact K]|]. split; [exact KE|]. split; [|lia]. rewrite T. cbn [ended]. rewrite <- !app_assoc. reflexivity.
        * intros [|l' ls] e rest E R; cbn [app] in E; injection E as -> E; [exact NC|]. cbn [map] in R. inversion R; subst; [contradiction| |contradiction]. eapply IH; eauto.
      + destruct KS as [ST NO]. assert (C : closes prefix (c l)) by (exists r; exact ST). destruct (uncomment_total r) as (q & UQ). rewrite UQ.
        assert (KP : kept (c l) (firstn (length (c l) - length r) (c l) ++ q) (match next_token q with [] => 0 | _ => 1 end)) by (eapply k_closes; eauto using closes_split).
        replace (S n - 1) with n by lia. destruct n as [|n].
        * exists [], l, [], (firstn (length (c l) - length r) (c l) ++ q), 0, (match next_token q with [] => 0 | _ => 1 end). split; [reflexivity|]. split; [apply run_nil|]. split; [exact C|]. split; [apply ks_nil|]. split; [exact KP|]. split; [cbn [ended]; rewrite app_nil_r; reflexivity|]. destruct (next_token q); lia.
        * destruct (add_line_well b (firstn (length (c l) - length r) (c l) ++ q) W) as (b' & -> & W' & T). specialize (IH n b' (match next_token q with [] => w | _ => S w end) W'). destruct (body _ _ _ _ _ lines) as [v rest w'| | |]; auto.
          { destruct IH as (ls & e & ks & k & wk & we & -> & R & C' & K & KE & -> & ->). exists (l :: ls), e, ((firstn (length (c l) - length r) (c l) ++ q) :: ks), k, ((match next_token q with [] => 0 | _ => 1 end) + wk), we. split; [reflexivity|]. split; [apply run_close; auto|]. split; [exact C'|]. split; [apply ks_cons; auto|]. split; [exact KE|]. split; [|destruct (next_token q); lia]. rewrite T. cbn [ended]. rewrite <- !app_assoc. reflexivity. }
          { intros [|l' ls] e rest E R; cbn [app] in E; injection E as -> E; [cbn [map] in R; inversion R|]. cbn [map] in R. inversion R; subst; [contradiction|contradiction|]. eapply IH; eauto. }
      + destruct KS as [NO NC]. destruct (add_line_well b (c l) W) as (b' & -> & W' & T). specialize (IH n b' w W'). destruct (body _ _ _ _ _ lines) as [v rest w'| | |]; auto.
        * destruct IH as (ls & e & ks & k & wk & we & -> & R & C & K & KE & -> & ->). exists (l :: ls), e, (c l :: ks), k, (0 + wk), we. split; [reflexivity|]. split; [apply run_line; auto|]. split; [exact C|]. split; [apply ks_cons; [apply k_same; exact NC|exact K]|]. split; [exact KE|]. split; [|lia]. rewrite T. cbn [ended]. rewrite <- !app_assoc. reflexivity.
        * intros [|l' ls] e rest E R; cbn [app] in E; injection E as -> E; [exact NC|]. cbn [map] in R. inversion R; subst; [|contradiction|contradiction]. eapply IH; eauto.
  Qed.
  Lemma exclusive l : opens prefix l -> closes prefix l -> False.
  Proof. intros O C. pose proof (kind_spec prefix l) as K. destruct (kind_of prefix l); destruct K as [A B]; auto. Qed.
  Lemma run_stop e rest e' rest' : closes prefix (c e) -> closes prefix (c e') -> forall ls n ls', run prefix n (map c ls) 1 -> run prefix n (map c ls') 1 -> ls ++ e :: rest = ls' ++ e' :: rest' -> ls = ls' /\ e = e' /\ rest = rest'.
  Proof.
    intros C C'. induction ls as [|l ls IH]; intros n [|l' ls'] R R' E; cbn [app map] in *.
    - injection E as -> ->. auto.
    - injection E as -> ->. inversion R; subst. inversion R'; subst; [contradiction|]. exfalso. eauto using exclusive.
    - injection E as -> <-. inversion R'; subst. inversion R; subst; [contradiction|]. exfalso. eauto using exclusive.
    - injection E as <- E. inversion R; subst; inversion R'; subst; try contradiction; try (exfalso; eauto using exclusive; fail);
        match goal with A : run prefix ?m (map c ls) 1, B : run prefix ?m (map c ls') 1 |- _ => destruct (IH m ls' A B E) as (-> & -> & ->); auto end.
  Qed.
  Lemma kepts_unique : forall ls ks w ks' w', kepts ls ks w -> kepts ls ks' w' -> ks = ks' /\ w = w'.
  Proof.
    induction ls as [|l ls IH]; intros ks w ks' w' A B; inversion A as [|? k v ? ks1 v1 A1 A2]; subst; inversion B as [|? k' v' ? ks2 v2 B1 B2]; subst; [auto|]. destruct (IH _ _ _ _ A2 B2) as [-> ->].
    assert (G : k = k' /\ v = v'). { inversion A1 as [? N|sp r q ? S1 L1 U1]; subst; inversion B1 as [? N'|sp' r' q' ? S2 L2 U2]; subst; auto; try (exfalso; unfold closes in *; eauto; fail). assert (r = r') by (eapply starts_unique; eauto). subst r'. apply app_inv_tail in L2. subst sp'. assert (q = q') by congruence. subst. auto. }
    destruct G as [-> ->]. auto.
  Qed.
  Lemma kept_becomes l k w : kept l k w -> becomes prefix l k.
  Proof.
    intros K. inversion K as [? N|sp r q ? S1 L1 U1]; subst; [left; auto|]. right. split; [exists r; exact S1|]. destruct (in_dec ascii_dec (ascii_of_nat 35) r) as [I|I]; [right; apply in_or_app; auto|left]. rewrite uncomment_none in U1 by exact I. injection U1 as <-. reflexivity.
  Qed.
  Lemma kepts_becomes ls ks w : kepts ls ks w -> Forall2 (becomes prefix) ls ks.
  Proof. induction 1; constructor; eauto using kept_becomes. Qed.
End Body.
