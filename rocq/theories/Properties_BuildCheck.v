(** The tests of S_BuildCheck follow from the theorems on the build engine: for all makefiles.  So a makefile for which one fails refutes a theorem. *)
From Verif Require Import Base M_Build S_Build P_Notice P_Build P_Made P_Quiet S_BuildExamples P_Question Properties_Build S_BuildCheck W_Random W_BuildCheck.
From Coq Require Import Lia.
Open Scope list_scope.
Open Scope nat_scope.

Ltac conj_all := repeat match goal with |- andb _ _ = true => apply andb_true_iff; split end.
Lemma memb_in n l : memb n l = true <-> In n l.
Proof. unfold memb. rewrite existsb_exists. split; [intros (a & I & E); apply Nat.eqb_eq in E; subst; exact I|intros I; exists n; split; [exact I|apply Nat.eqb_refl]]. Qed.
Lemma memb_out n l : memb n l = false <-> ~ In n l.
Proof. rewrite <- memb_in. destruct (memb n l); split; intros H; congruence. Qed.
Lemma grow_start k succ : forall l n, In n l -> In n (grow k succ l).
Proof. induction k as [|k IH]; intros l n I; [exact I|]. apply IH. apply nodup_In, in_or_app. left. exact I. Qed.
Lemma grow_sound (Q : nat -> Prop) k succ : (forall a b, Q a -> In b (succ a) -> Q b) -> forall l, (forall a, In a l -> Q a) -> forall n, In n (grow k succ l) -> Q n.
Proof.
  intros ST. induction k as [|k IH]; intros l QL n I; [exact (QL n I)|]. apply (IH (nodup Nat.eq_dec (l ++ flat_map succ l))); [|exact I].
  intros a IA. apply nodup_In, in_app_or in IA. destruct IA as [IA|IA]; [exact (QL a IA)|]. apply in_flat_map in IA. destruct IA as (b & IB & IA). exact (ST b a (QL b IB) IA).
Qed.
Lemma closed_step succ l a b : closed succ l = true -> In a l -> In b (succ a) -> In b l.
Proof. unfold closed. intros C IA IB. rewrite forallb_forall in C. specialize (C a IA). rewrite forallb_forall in C. apply memb_in. exact (C b IB). Qed.
(** [Q]: a least set that contains [l] and is closed. *)
Lemma perhaps_in x succ l n : (forall W, (forall a, In a l -> In a W) -> (forall a b, In a W -> In b (succ a) -> In b W) -> In n W) -> perhaps x succ l n = true.
Proof.
  intros H. unfold perhaps. cbv zeta. destruct (closed succ (grow (size x) succ l)) eqn:C; [|reflexivity]. cbn [negb orb]. apply memb_in. apply H; [intros a; apply grow_start|]. intros a b. exact (closed_step _ _ a b C).
Qed.
Lemma ev_eqb_eq a b : ev_eqb a b = true <-> a = b.
Proof.
  destruct a, b; cbn; split; intros H; try discriminate; try (injection H; intros; subst); rewrite ?andb_true_iff, ?Nat.eqb_eq, ?Bool.eqb_true_iff in *; auto; try (f_equal; tauto); try (destruct H; subst; reflexivity).
Qed.
Lemma has_in t e : has t e = true <-> In e t.
Proof. unfold has. rewrite existsb_exists. split; [intros (a & I & E); apply ev_eqb_eq in E; subst; exact I|intros I; exists e; split; [exact I|apply ev_eqb_eq; reflexivity]]. Qed.
Lemma has_out t e : ~ In e t -> has t e = false.
Proof. intros N. destruct (has t e) eqn:H; [|reflexivity]. exfalso. apply N, has_in, H. Qed.
Lemma each_all p : forall t, (forall t2 e t1, t = t2 ++ e :: t1 -> p e t1 = true) -> each p t = true.
Proof.
  induction t as [|e t IH]; intros H; [reflexivity|]. cbn [each]. apply andb_true_iff. split; [apply (H [] e t eq_refl)|]. apply IH. intros t2 a t1 E. apply (H (e :: t2) a t1). rewrite E. reflexivity.
Qed.
Lemma distinct_nodup l : NoDup l -> distinct l = true.
Proof. intros H. induction H as [|a l N H IH]; [reflexivity|]. cbn [distinct]. apply andb_true_iff. split; [|exact IH]. apply negb_true_iff, memb_out, N. Qed.
Lemma absent_iff a : absent a = true <-> a = Absent.
Proof. destruct a; split; intros H; try discriminate; reflexivity. Qed.
Lemma later_iff a b : later_b a b = true <-> later a b.
Proof.
  split.
  - destruct a, b; cbn; intros H; try discriminate; try (apply later_there; discriminate); try apply later_new. apply later_at, Nat.ltb_lt, H.
  - intros H. destruct H as [n k L|n|a N]; [apply Nat.ltb_lt, L|reflexivity|destruct a; [congruence|reflexivity|reflexivity]].
Qed.
Lemma same_refl a : same_time a a = true.
Proof. destruct a; cbn; [reflexivity|apply Nat.eqb_refl|reflexivity]. Qed.
Lemma fine_iff s : fine_b s = true <-> fine s.
Proof. destruct s; cbn; unfold fine; cbn; split; intros H; try reflexivity; try discriminate; lia. Qed.

Section Of.
  Variable x : mf.
  Notation G := (m_deps (make_of x)).
  Lemma edge_of f d o : edge G f d o <-> In (d, o) (deps_of x f).
  Proof.
    unfold edge. cbn [make_of m_deps]. split.
    - intros (y & I & <- & <-). apply in_map_iff in I. destruct I as ([d o] & <- & I). exact I.
    - intros I. exists (mkdep d o false). split; [|split; reflexivity]. apply in_map_iff. exists (d, o). split; [reflexivity|exact I].
  Qed.
  Lemma deps_small f p : In p (deps_of x f) -> f < size x.
  Proof. unfold deps_of, size. intros I. destruct (Nat.lt_ge_cases f (length (x_deps x))) as [L|L]; [exact L|]. rewrite nth_overflow in I by exact L. destruct I. Qed.
  Lemma heads_in f d : In d (heads x f) <-> exists o, edge G f d o.
  Proof. unfold heads. rewrite in_map_iff. split; [intros ([a o] & <- & I); exists o; apply edge_of; exact I|intros (o & E); exists (d, o); split; [reflexivity|apply edge_of; exact E]]. Qed.
  Lemma parents_in ok f d o : edge G f d o -> ok f d o = true -> In f (parents x ok d).
  Proof.
    intros E K. apply edge_of in E. unfold parents. apply filter_In. split; [apply in_seq; pose proof (deps_small _ _ E); lia|]. apply existsb_exists. exists (d, o). split; [exact E|]. cbn. rewrite Nat.eqb_refl. exact K.
  Qed.
  Lemma parents_out ok f d : In f (parents x ok d) -> exists o, edge G f d o /\ ok f d o = true.
  Proof.
    unfold parents. intros I. apply filter_In in I. destruct I as [_ I]. apply existsb_exists in I. destruct I as ([a o] & I & H). cbn in H. apply andb_true_iff in H. destruct H as [H1 H2]. apply Nat.eqb_eq in H1. subst a. exists o. split; [apply edge_of; exact I|exact H2].
  Qed.
  Lemma reach_perhaps a f l : In a l -> reach G a f -> perhaps x (heads x) l f = true.
  Proof. intros IA R. apply perhaps_in. intros W S1 S2. induction R as [f|f g d o R IH E]; [exact (S1 _ IA)|]. apply (S2 g); [exact (IH IA)|]. apply heads_in. exists o. exact E. Qed.
  Lemma wanted_perhaps f : wanted (make_of x) (x_goals x) f -> perhaps x (heads x) (x_goals x) f = true.
  Proof. intros (g & I & R). exact (reach_perhaps g f _ I R). Qed.
  Lemma plain_iff d : plain_dep x d = true <-> m_inter (make_of x) d = false \/ m_phony (make_of x) d = true.
  Proof. unfold plain_dep. cbn. rewrite orb_true_iff, negb_true_iff. tauto. Qed.

  Lemma failed_iff t f : In f (failed_in t) <-> In (Finish f false) t \/ In (NoRule f) t.
  Proof.
    unfold failed_in. rewrite in_flat_map. split.
    - intros (e & I & H). destruct e as [g|g [] |g|g d]; cbn in H; try destruct H as [<- |[]]; try destruct H; auto.
    - intros [I|I]; [exists (Finish f false)|exists (NoRule f)]; (split; [exact I|left; reflexivity]).
  Qed.
  Lemma needs_of t g f : In f (t_needs x t g) -> needs G (m_inter (make_of x)) (m_phony (make_of x)) t g f.
  Proof.
    unfold t_needs. apply grow_sound.
    - intros a b Q I. apply in_map_iff in I. destruct I as ([d o] & <- & I). apply filter_In in I. destruct I as [I H]. cbn in *. apply andb_true_iff in H. destruct H as [H1 H2].
      apply (needs_step _ _ _ _ g a d o Q); [apply edge_of; exact I| |apply plain_iff; exact H2]. intros K. apply has_in in K. rewrite K in H1. discriminate.
    - intros a [<- |[]]. apply needs_refl.
  Qed.
  Lemma doomed_of t f : t_doomed x t f = true -> doomed G (m_inter (make_of x)) (m_phony (make_of x)) t f.
  Proof.
    unfold t_doomed, surely. intros H. apply memb_in in H. revert f H. apply grow_sound.
    - intros a b Q I. apply parents_out in I. destruct I as (o & E & H). apply andb_true_iff in H. destruct H as [H1 H2]. apply (dm_dep _ _ _ _ b a o E); [|apply plain_iff; exact H2|exact Q].
      intros K. apply has_in in K. rewrite K in H1. discriminate.
    - intros a I. apply failed_iff in I. destruct I as [I|I]; [apply dm_failed; exact I|apply dm_no_rule; exact I].
  Qed.
  Lemma hopeless_of t f : hopeless G t f -> t_hopeless x t f = true.
  Proof.
    intros H. apply perhaps_in. intros W S1 S2. induction H as [f I|f I|f d o E H IH]; [apply S1, failed_iff; auto|apply S1, failed_iff; auto|]. apply (S2 d f IH). apply (parents_in _ f d o E). reflexivity.
  Qed.
  Hypothesis RANGE : forall f d o, edge G f d o -> d < size x.
  Lemma reason_of t this d : d < size x -> reason G (m_inter (make_of x)) (m_phony (make_of x)) (disk_of x) t this d -> t_reason x t this d = true.
  Proof.
    intros L H. apply perhaps_in. intros W S1 S2. induction H as [d P|d I A|d LA|d ok F|d e I E H IH].
    - apply S1, filter_In. split; [apply in_seq; lia|]. cbn in P. rewrite P. reflexivity.
    - apply S1, filter_In. split; [apply in_seq; lia|]. cbn in I. rewrite I, A. cbn. rewrite orb_true_r. reflexivity.
    - apply S1, filter_In. split; [apply in_seq; lia|]. apply later_iff in LA. rewrite LA. rewrite !orb_true_r. reflexivity.
    - apply S1, filter_In. split; [apply in_seq; lia|]. apply has_in in F. destruct ok; rewrite F; rewrite !orb_true_r; reflexivity.
    - apply (S2 e); [apply IH; exact (RANGE d e false E)|]. apply (parents_in _ d e false E). cbn in I. rewrite I. reflexivity.
  Qed.
  Lemma unmade_of t f : t_unmade x t f = true -> unmade (m_phony (make_of x)) (m_cmds (make_of x)) (m_blank (make_of x)) (m_target (make_of x)) t f.
  Proof.
    intros U. apply orb_true_iff in U. unfold unmade. cbn. destruct U as [U|U]; apply andb_true_iff in U; destruct U as [U U3]; apply andb_true_iff in U; destruct U as [U1 U2]; rewrite ?negb_true_iff in *; [left|right]; repeat split; auto.
    intros K. apply has_in in K. congruence.
  Qed.
  Lemma foreseen_of t f : foreseen G (m_inter (make_of x)) (m_phony (make_of x)) (disk_of x) (m_cmds (make_of x)) (m_blank (make_of x)) (m_target (make_of x)) t f -> t_foreseen x t f = true.
  Proof.
    intros (A3 & A4). unfold t_foreseen. apply andb_true_iff. split; [rewrite has_out by exact A3; reflexivity|].
    destruct (t_unmade x t f) eqn:U; [|reflexivity]. cbn [negb orb]. destruct (A4 (unmade_of t f U)) as (B0 & B1 & B2). cbn in B0. rewrite B0. cbn [negb andb].
    apply andb_true_iff. split; [apply negb_true_iff; destruct (disk_of x f); [congruence|reflexivity|reflexivity]|]. apply forallb_forall. intros [d o] I. cbn [fst snd].
    destruct o; [reflexivity|]. cbn [orb]. destruct (has t (Drop f d)) eqn:HD; [reflexivity|]. cbn [orb]. destruct (plain_dep x d) eqn:PD; [|reflexivity]. cbn [negb orb].
    destruct (B2 d) as (C0 & C1 & C2 & C3); [apply edge_of; exact I|intros K; apply has_in in K; congruence|apply plain_iff; exact PD|]. cbn in C0. rewrite C0, (has_out _ _ C3). cbn [negb andb]. rewrite andb_true_r.
    apply andb_true_iff. split; [apply negb_true_iff; destruct (disk_of x d); [congruence|reflexivity|reflexivity]|]. apply negb_true_iff. destruct (later_b (disk_of x d) (disk_of x f)) eqn:L; [|reflexivity]. exfalso. apply C2, later_iff, L.
  Qed.
  Lemma accomplished_of t D f : accomplished G (m_inter (make_of x)) (m_phony (make_of x)) (m_cmds (make_of x)) (m_blank (make_of x)) (m_target (make_of x)) t D f -> t_accomplished x t D f = true.
  Proof.
    intros (A1 & A2 & A3 & A4). unfold t_accomplished. apply andb_true_iff. split; [apply andb_true_iff; split; [apply andb_true_iff; split|]|].
    - destruct (has t (Start f)) eqn:H; [|reflexivity]. cbn. apply has_in, A1, has_in, H.
    - rewrite has_out by exact A2. reflexivity.
    - rewrite has_out by exact A3. reflexivity.
    - match goal with |- negb ?b || _ = true => destruct b eqn:U; [|reflexivity] end. cbn [negb orb].
      destruct (A4 (unmade_of t f U)) as (B0 & B1 & B2). cbn in B0. rewrite B0. cbn [negb andb].
      apply andb_true_iff. split; [apply negb_true_iff; destruct (D f); [congruence|reflexivity|reflexivity]|]. apply forallb_forall. intros [d o] I. cbn [fst snd].
      destruct o; [reflexivity|]. cbn [orb]. destruct (has t (Drop f d)) eqn:HD; [reflexivity|]. cbn [orb]. destruct (plain_dep x d) eqn:PD; [|reflexivity]. cbn [negb orb].
      destruct (B2 d) as (C0 & C1 & C2); [apply edge_of; exact I|intros K; apply has_in in K; congruence|apply plain_iff; exact PD|]. cbn in C0. rewrite C0. cbn [negb andb].
      apply andb_true_iff. split; [apply negb_true_iff; destruct (D d); [congruence|reflexivity|reflexivity]|]. apply negb_true_iff. destruct (later_b (D d) (D f)) eqn:L; [|reflexivity]. exfalso. apply C2, later_iff, L.
  Qed.
End Of.

Lemma fits_of x : fits_b x = true -> fits (make_of x) (disk_of x) (size x) (x_goals x) /\ (forall f d o, edge (m_deps (make_of x)) f d o -> d < size x).
Proof.
  unfold fits_b. intros H. apply andb_true_iff in H. destruct H as [H H4]. apply andb_true_iff in H. destruct H as [H H3]. apply andb_true_iff in H. destruct H as [H1 H2]. rewrite forallb_forall in H1, H2, H4.
  assert (R : forall f d o, edge (m_deps (make_of x)) f d o -> d < size x).
  { intros f d o E. apply edge_of in E. pose proof (deps_small x f _ E) as L. specialize (H2 (deps_of x f) (nth_In _ _ L)). rewrite forallb_forall in H2. specialize (H2 _ E). apply Nat.ltb_lt in H2. exact H2. }
  split; [|exact R]. split; [intros g I; apply Nat.ltb_lt, H1, I|]. split; [intros f d o _; apply R|]. split.
  - cbn. apply orb_true_iff in H3. destruct H3 as [K|K]; [left; exact K|right]. destruct (x_how x); auto; discriminate.
  - right. split; [intros c f D n N; cbn; apply Nat.eqb_neq in N; rewrite N; reflexivity|]. intros f I A. cbn in *. apply memb_in in I. specialize (H4 f I). apply orb_true_iff in H4. destruct H4 as [K|K]; [apply absent_iff in K; congruence|]. apply andb_true_iff in K. destruct K as [K1 K2]. apply negb_true_iff in K2. auto.
Qed.
Lemma own_of x : writes_own (make_of x).
Proof. intros c f D n N. cbn. apply Nat.eqb_neq in N. rewrite N. reflexivity. Qed.

Lemma any_of x st : fits_b x = true -> leaves (run_of x (disk_of x)) st -> t_any x st = true.
Proof.
  intros FB L. destruct (fits_of x FB) as [F R]. unfold run_of in L.
  assert (F1 : 2 * size x + 2 <= 2 * size x + 2) by lia. assert (P1 : 2 * size x + 1 <= 2 * size x + 1) by lia.
  unfold t_any. cbv zeta. conj_all.
  - destruct (C27_once _ _ _ 0 _ _ _ F F1 P1 st L) as (O1 & O2 & O3 & O4 & O5). unfold t_once. conj_all; [apply distinct_nodup, O1|apply distinct_nodup, O2| |].
    + apply each_all. intros t2 [f|f ok|f|f d] t1 E; try reflexivity. apply has_in. exact (O3 t2 f ok t1 E).
    + apply forallb_forall. intros [f|f ok|f|f d] I; try reflexivity.
      * destruct (O4 f I) as (W & C & B). cbn in C, B. rewrite (wanted_perhaps x f W), C, B. reflexivity.
      * destruct (O5 f I) as (W & C & T & P). cbn in C, T, P. rewrite (wanted_perhaps x f W), C, T, P. reflexivity.
  - pose proof (C27_order _ _ _ 0 _ _ _ F F1 P1 st L) as O. unfold t_order. apply each_all. intros t2 [f|f ok|f|f d] t1 E; try reflexivity. apply forallb_forall. intros [d o] I. cbn [fst].
    destruct (O t2 f t1 d o E) as [K|(K1 & K2 & K3)]; [apply edge_of; exact I|apply has_in in K; rewrite K; reflexivity|]. rewrite (has_out _ _ K2), (has_out _ _ K3).
    destruct (has (s_trace st) (Start d)) eqn:HS; [|rewrite orb_true_r; reflexivity]. apply has_in, K1, has_in in HS. rewrite HS. cbn. apply orb_true_r.
  - destruct (normal x) eqn:NO; [|reflexivity]. cbn [negb orb]. assert (HN : m_how (make_of x) = Normal) by (cbn; unfold normal in NO; destruct (x_how x); try discriminate; reflexivity).
    pose proof (C27_needed _ _ _ 0 _ _ _ F F1 P1 st L HN (own_of x)) as J. unfold t_needed. apply each_all. intros t2 e t1 E.
    assert (Q : forall f, e = Start f \/ e = NoRule f -> memb f (x_phony x) || absent (disk_of x f) || x_always x || (memb f (x_double x) && forallb (fun p => has t1 (Drop f (fst p))) (deps_of x f)) ||
      existsb (fun p => negb (snd p) && t_reason x t1 (disk_of x f) (fst p)) (deps_of x f) = true).
    { intros f K. destruct (J t2 e f t1 E K) as [A|[A|[A|[(A & B)|(d & A & B)]]]].
      - cbn in A. rewrite A. reflexivity.
      - rewrite A. cbn. rewrite !orb_true_r. reflexivity.
      - cbn in A. rewrite A. rewrite !orb_true_r. reflexivity.
      - cbn in A. rewrite A. assert (X : forallb (fun p => has t1 (Drop f (fst p))) (deps_of x f) = true); [|rewrite X; cbn; rewrite !orb_true_r; reflexivity].
        apply forallb_forall. intros [d o] I. apply has_in. apply (B d o). apply edge_of. exact I.
      - apply orb_true_iff. right. apply existsb_exists. exists (d, false). split; [apply edge_of; exact A|]. cbn. apply (reason_of x R); [exact (R f d false A)|exact B]. }
    destruct e as [f|f ok|f|f d]; try reflexivity; apply Q; auto.
  - pose proof (C27_drops _ _ _ 0 _ _ _ F F1 P1 st L) as D. unfold t_drops. apply forallb_forall. intros [f|f ok|f|f d] I; try reflexivity. destruct (D f d I) as [D1 D2].
    rewrite (reach_perhaps x d f [d] (or_introl eq_refl) D1). cbn. apply memb_in, heads_in, D2.
  - pose proof (C29_contained _ _ _ 0 _ _ _ F F1 P1 st L) as C. unfold t_contained. apply forallb_forall. intros [f|f ok|f|f d] I; try reflexivity. apply forallb_forall. intros [d o] ID. cbn [fst].
    destruct (has (s_trace st) (Drop f d)) eqn:HD; [reflexivity|]. destruct (plain_dep x d) eqn:PD; [|reflexivity]. cbn [negb orb]. apply negb_true_iff. destruct (t_doomed x (s_trace st) d) eqn:TD; [|reflexivity].
    exfalso. apply (C f d o I); [apply edge_of; exact ID|intros K; apply has_in in K; congruence|apply plain_iff; exact PD|apply doomed_of; exact TD].
  - destruct (x_keep x) eqn:K; [reflexivity|]. cbn [orb]. destruct (C29_stop _ _ _ 0 _ _ _ F F1 P1 K) as (S1 & _). specialize (S1 st L). unfold t_stops. destruct (s_trace st) as [|e t]; [reflexivity|]. apply negb_true_iff.
    destruct (existsb failure_b t) eqn:X; [|reflexivity]. apply existsb_exists in X. destruct X as (a & I & FA). apply in_split in I. destruct I as (l1 & l2 & ->). exfalso.
    assert (Z : e :: l1 = []); [|discriminate]. apply (S1 (e :: l1) a l2 eq_refl). destruct a as [f|f [] |f|f d]; try discriminate; exists f; auto.
  - pose proof (C27_present _ _ _ 0 _ _ _ F F1 P1 st L (fun _ => own_of x)) as P. unfold t_present. apply each_all. intros t2 [f|f ok|f|f d] t1 E; try reflexivity. apply forallb_forall. intros [d o] I. cbn [fst]. cbv zeta.
    destruct (P t2 f t1 d o E) as [K|[K|[[K1 K2]|[[K1 K2]|[K|K]]]]]; [apply edge_of; exact I|apply has_in in K; rewrite K|cbn in K; rewrite K|cbn in K1, K2; rewrite K1, K2|cbn in K1, K2; rewrite K1, K2|apply has_in in K; rewrite K|]; cbn [negb andb]; rewrite ?orb_true_r; try reflexivity.
    destruct (disk_of x d); [congruence| |]; cbn [absent negb]; rewrite ?orb_true_r; reflexivity.
Qed.
Lemma foreseen_end_of x s st : fits_b x = true -> run_of x (disk_of x) = Ok s st -> t_foreseen_end x s (s_trace st) = true.
Proof.
  intros FB RUN. destruct (fits_of x FB) as [F R]. unfold run_of in RUN.
  assert (F1 : 2 * size x + 2 <= 2 * size x + 2) by lia. assert (P1 : 2 * size x + 1 <= 2 * size x + 1) by lia.
  assert (NN : no_new x = true -> forall f, disk_of x f <> New).
  { intros H f K. unfold no_new in H. rewrite forallb_forall in H. unfold disk_of in K. destruct (nth_in_or_default f (x_disk x) Absent) as [I|I]; [|congruence]. specialize (H _ I). rewrite K in H. discriminate. }
  unfold t_foreseen_end. destruct (x_how x) eqn:H; try reflexivity.
  - destruct (no_new x) eqn:N; [|reflexivity]. cbn [negb orb]. specialize (NN eq_refl). apply forallb_forall. intros g IG. apply forallb_forall. intros f NE.
    destruct (C51_foreseen _ _ _ 0 _ _ _ F F1 P1 s st RUN (or_introl H) NN g f IG (needs_of x _ g f NE)) as [A B]. destruct (fine_b s) eqn:FI; [cbn [negb andb orb]; apply foreseen_of, A, fine_iff, FI|].
    cbn [negb andb]. apply orb_true_iff. destruct (B H) as [Z|Z]; [left; apply hopeless_of; exact Z|right; apply foreseen_of; exact Z].
  - destruct (no_new x) eqn:N; [|reflexivity]. destruct (fine_b s) eqn:FI; [|reflexivity]. cbn [negb orb]. specialize (NN eq_refl). apply forallb_forall. intros g IG. apply forallb_forall. intros f NE.
    apply foreseen_of. apply (C51_foreseen _ _ _ 0 _ _ _ F F1 P1 s st RUN (or_intror H) NN g f IG (needs_of x _ g f NE)). apply fine_iff, FI.
Qed.
Lemma modes_of x st : leaves (run_of x (disk_of x)) st -> t_modes x st = true.
Proof.
  intros L. unfold t_modes. destruct (x_how x) eqn:H; [reflexivity| | |].
  - destruct (C51_still _ _ _ _ _ _ _ _ _ _ _ _ _ _ _ _ _ _ _ _ L (or_introl H)) as [E _]. apply forallb_forall. intros f _. rewrite E. apply same_refl.
  - assert (T : forall f, s_disk st f = disk_of x f \/ (memb f (x_cmds x) = true /\ memb f (x_phony x) = false)) by exact (C51_touch _ _ _ _ _ _ _ _ _ _ _ _ _ _ _ _ _ _ _ _ L H (own_of x)).
    apply andb_true_iff. split.
    + apply forallb_forall. intros f _. destruct (T f) as [E|[E1 E2]]; [rewrite E, same_refl; reflexivity|rewrite E1, E2; apply orb_true_r].
    + pose proof (C51_runs_nothing _ _ _ _ _ _ _ _ _ _ _ _ _ _ _ _ _ _ _ _ L (or_intror H)) as N. revert N. generalize (s_trace st). induction l as [|e l IH]; intros N; [reflexivity|]. destruct e; try (apply IH; intros g I; apply (N g); right; exact I). exfalso. apply (N f). left. reflexivity.
  - destruct (C51_still _ _ _ _ _ _ _ _ _ _ _ _ _ _ _ _ _ _ _ _ L (or_intror H)) as [E _]. apply andb_true_iff. split.
    + apply forallb_forall. intros f _. rewrite E. apply same_refl.
    + pose proof (C51_runs_nothing _ _ _ _ _ _ _ _ _ _ _ _ _ _ _ _ _ _ _ _ L (or_introl H)) as N. revert N. generalize (s_trace st). induction l as [|e l IH]; intros N; [reflexivity|]. destruct e; try (apply IH; intros g I; apply (N g); right; exact I). exfalso. apply (N f). left. reflexivity.
Qed.

(** The tests of the first build. *)
Theorem C27_check : forall x, fits_b x = true -> check x = true.
Proof.
  intros x FB. destruct (fits_of x FB) as [F R]. assert (F1 : 2 * size x + 2 <= 2 * size x + 2) by lia. assert (P1 : 2 * size x + 1 <= 2 * size x + 1) by lia.
  unfold check. destruct (run_of x (disk_of x)) as [s st|st|] eqn:RUN.
  - assert (L : leaves (run_of x (disk_of x)) st) by (right; exists s; exact RUN). rewrite (any_of x st FB L), (modes_of x st L), (foreseen_end_of x s st FB RUN), andb_true_r. cbn [andb]. unfold t_ok_end. cbv zeta.
    apply andb_true_iff. split; [apply andb_true_iff; split|].
    + destruct (x_keep x) eqn:K; [reflexivity|]. cbn [orb]. destruct (C29_stop _ _ _ 0 _ _ _ F F1 P1 K) as (_ & S2 & _). destruct (S2 s st RUN) as [FI NF]. apply fine_iff in FI. rewrite FI. cbn. apply negb_true_iff.
      destruct (existsb failure_b (s_trace st)) eqn:X; [|reflexivity]. apply existsb_exists in X. destruct X as (a & I & FA). exfalso. apply (NF a I). destruct a as [f|f [] |f|f d]; try discriminate; exists f; auto.
    + destruct (fine_b s) eqn:FI; [|reflexivity]. destruct (normal x) eqn:NO; [|reflexivity]. cbn [andb negb orb]. assert (HN : m_how (make_of x) = Normal) by (cbn; unfold normal in NO; destruct (x_how x); try discriminate; reflexivity).
      apply forallb_forall. intros g IG. apply forallb_forall. intros f NE. apply accomplished_of. apply fine_iff in FI. exact (C27_complete _ _ _ 0 _ _ _ F F1 P1 s st RUN FI HN (own_of x) g f IG (needs_of x _ g f NE)).
    + destruct (x_keep x) eqn:K; [|reflexivity]. cbn [negb orb]. destruct (C29_keep_going _ _ _ 0 _ _ _ F F1 P1 K) as (s' & st' & RUN' & K1 & K2 & K3). unfold run_of in RUN. rewrite RUN in RUN'. injection RUN' as <- <-.
      apply andb_true_iff. split; [apply andb_true_iff; split|].
      * destruct (normal x) eqn:NO; [|reflexivity]. cbn [negb orb]. assert (HN : m_how (make_of x) = Normal) by (cbn; unfold normal in NO; destruct (x_how x); try discriminate; reflexivity).
        apply forallb_forall. intros g IG. apply forallb_forall. intros f NE. apply orb_true_iff. destruct (K1 HN (own_of x) g f IG (needs_of x _ g f NE)) as [A|A]; [left; apply hopeless_of; exact A|right; apply accomplished_of; exact A].
      * destruct (fine_b s) eqn:FI; [|reflexivity]. cbn [negb orb]. apply fine_iff in FI. apply forallb_forall. intros g IG. apply negb_true_iff. destruct (t_doomed x (s_trace st) g) eqn:D; [|reflexivity]. exfalso. exact (K2 FI g IG (doomed_of x _ g D)).
      * match goal with |- negb ?b || _ || _ = true => destruct b eqn:H; [|reflexivity] end. cbn [negb orb]. destruct (fine_b s) eqn:FI; [reflexivity|]. cbn [orb]. destruct K3 as (g & IG & HO).
        { cbn. destruct (x_how x); auto; discriminate. } { intros FF. apply fine_iff in FF. congruence. }
        apply existsb_exists. exists g. split; [exact IG|apply hopeless_of; exact HO].
  - assert (L : leaves (run_of x (disk_of x)) st) by (left; exact RUN). rewrite (any_of x st FB L), (modes_of x st L). cbn [andb]. destruct (x_keep x) eqn:K.
    { destruct (C29_keep_going _ _ _ 0 _ _ _ F F1 P1 K) as (s' & st' & RUN' & _). unfold run_of in RUN. rewrite RUN in RUN'. discriminate. }
    cbn [negb andb]. destruct (C29_stop _ _ _ 0 _ _ _ F F1 P1 K) as (_ & _ & S3). destruct (S3 st RUN) as (e & t & E & FA). rewrite E. destruct FA as (f & [-> | ->]); reflexivity.
  - exfalso. exact (C27_ends _ _ _ 0 _ _ _ F F1 P1 RUN).
Qed.
Print Assumptions C27_check.

(** The tests of the second one. *)
Theorem C28_check : forall x, fits_b x = true -> check2 x = true.
Proof.
  intros x FB. destruct (fits_of x FB) as [F R]. assert (F1 : 2 * size x + 2 <= 2 * size x + 2) by lia. assert (P1 : 2 * size x + 1 <= 2 * size x + 1) by lia.
  unfold check2. destruct (run_of x (disk_of x)) as [s st|st|] eqn:RUN; [|reflexivity|reflexivity]. destruct (fine_b s) eqn:FI; [|reflexivity]. destruct (second_b x st) eqn:SB; [|reflexivity]. cbn [andb negb orb].
  unfold second_b in SB. apply andb_true_iff in SB. destruct SB as [SB B6]. apply andb_true_iff in SB. destruct SB as [SB B5]. apply andb_true_iff in SB. destruct SB as [SB B4]. apply andb_true_iff in SB. destruct SB as [SB B3]. apply andb_true_iff in SB. destruct SB as [B1 B2].
  assert (HN : m_how (make_of x) = Normal) by (cbn; unfold normal in B1; destruct (x_how x); try discriminate; reflexivity). apply negb_true_iff in B2. rewrite forallb_forall in B5, B6.
  assert (ND : x_double x = [] /\ x_inter x = []) by (destruct (x_double x), (x_inter x); try discriminate; auto). destruct ND as [ND NI].
  assert (SM : forall g f, In g (x_goals x) -> reach (m_deps (make_of x)) g f -> f < size x).
  { intros g f IG RE. induction RE as [f|f g d o RE IH E]; [exact (proj1 F f IG)|exact (R g d o E)]. }
  destruct (C28_second (make_of x) (size x) (disk_of x) 0 0 (2 * size x + 1) (2 * size x + 1) (2 * size x + 2) (2 * size x + 2) (x_goals x) (x_goals x) s st) as (s' & st' & RUN2 & FI2 & TR & DK); auto.
  - intros f. cbn. rewrite ND. reflexivity.
  - intros f. cbn. rewrite NI. reflexivity.
  - exact (own_of x).
  - intros c f D n _. cbn. rewrite Nat.eqb_refl, B4. intros LA. inversion LA.
  - intros f d o E RE. assert (IF : In f (files x)) by (apply in_seq; pose proof (deps_small x f _ (proj1 (edge_of x f d o) E)); lia). specialize (B5 f IF). rewrite forallb_forall in B5.
    specialize (B5 d (proj2 (heads_in x f d) (ex_intro _ o E))). rewrite (reach_perhaps x d f [d] (or_introl eq_refl) RE) in B5. discriminate.
  - intros f (g & IG & RE) PH. cbn in PH |- *. assert (IF : In f (files x)) by (apply in_seq; pose proof (SM g f IG RE); lia). specialize (B6 f IF). rewrite PH in B6. apply negb_true_iff in B6. exact B6.
  - intros f d (g & IG & RE) PH E. cbn in PH |- *. assert (IF : In f (files x)) by (apply in_seq; pose proof (SM g f IG RE); lia). specialize (B6 f IF). rewrite PH in B6. apply andb_true_iff in B6. destruct B6 as [_ B6]. rewrite forallb_forall in B6.
    specialize (B6 (d, false) (proj1 (edge_of x f d false) E)). cbn in B6. apply negb_true_iff in B6. exact B6.
  - apply fine_iff. exact FI.
  - intros f (g & IG & RE) PH A. cbn in PH. assert (IF : In f (files x)) by (apply in_seq; pose proof (SM g f IG RE); lia). specialize (B6 f IF). rewrite PH, A in B6. discriminate.
  - intros g IG. exists g. split; [exact IG|apply reach_refl].
  - unfold run_of. rewrite RUN2. apply fine_iff in FI2. rewrite FI2, TR. cbn [andb]. apply forallb_forall. intros f _. rewrite DK. apply same_refl.
Qed.
Print Assumptions C28_check.

(** What W_BuildCheck computes follows from the theorems. *)
Lemma samples_follow : forall l, test_all l = true.
Proof. intros l. apply forallb_forall. intros x _. destruct (fits_b x) eqn:F; [|reflexivity]. rewrite (C27_check x F), (C28_check x F). reflexivity. Qed.
(** All of the samples meet the hypothesis; in some the second build is one that C28 is about, some end at a failure. *)
Definition repeats (x : mf) : bool := match run_of x (disk_of x) with Ok s st => fine_b s && second_b x st | _ => false end.
Definition dies (x : mf) : bool := match run_of x (disk_of x) with Die _ => true | _ => false end.
Example samples_fit : unit.
Proof. computes (forallb fits_b (samples_small ++ samples_normal ++ samples_plain ++ samples_modes) && (25 <=? length (filter repeats samples_plain)) && (20 <=? length (filter dies samples_normal))). Qed.
Example samples_few_fit : forallb fits_b samples_few = true. Proof. vm_compute. reflexivity. Qed.
