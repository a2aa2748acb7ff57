(** C71: the time of a file, and the name under which it is found. *)
From Coq Require Import Lia String List.
From Verif Require Import Base M_Rename S_Rename P_Rename Properties_Rename M_Mtime S_Mtime P_Mtime.
Open Scope string_scope.
Open Scope list_scope.
Open Scope nat_scope.

(** What is done if the file is found under another name. *)
Lemma found_result vp lib name r : found vp lib name r -> (match vp name with Some r => Some r | None => if dash_l name then lib name else None end) = Some r.
Proof. intros [r' E | r' rest E -> L]; rewrite E; [reflexivity|]. cbn [dash_l]. exact L. Qed.
Lemma not_found vp lib name : (forall r, ~ found vp lib name r) -> (match vp name with Some r => Some r | None => if dash_l name then lib name else None end) = None.
Proof.
  intros N. destruct (vp name) as [r|] eqn:V; [destruct (N r); apply fd_path; exact V|]. destruct (dash_l name) eqn:D; [|reflexivity]. destruct (lib name) as [r|] eqn:L; [|reflexivity]. exfalso.
  destruct name as [| a [| b rest]]; try discriminate. cbn [dash_l] in D. apply andb_true_iff in D. destruct D as [A B]. apply eqc_true in A. apply eqc_true in B. subst. exact (N r (fd_lib _ _ _ r rest V eq_refl L)).
Qed.
Lemma directory d name : let nm := d ++ "/"%char :: name in
  (length nm <=? length name) = false /\ (let l := length nm - length name in match nth_error nm (l - 1) with Some c => if c =?c "/" then l - 1 else l | None => l end) = length d.
Proof.
  cbn zeta. rewrite app_length. cbn [List.length]. split; [apply Nat.leb_gt; lia|]. replace (length d + S (length name) - length name - 1) with (length d) by lia.
  rewrite nth_error_app2 by lia. rewrite Nat.sub_diag. cbn [nth_error]. rewrite Ascii.eqb_refl. reflexivity.
Qed.
Lemma gpath_iff g d name : gpath_search g (d ++ "/"%char :: name) (length d) = true <-> In d g.
Proof.
  unfold gpath_search. rewrite firstn_app, Nat.sub_diag, firstn_all. cbn [firstn]. rewrite app_nil_r, existsb_exists. split.
  - intros (x & I & E). apply str_eqb_eq in E. subst. exact I.
  - intros I. exists d. split; [exact I|apply str_eqb_refl].
Qed.

(** A file that is there under its name, for which nothing is to be searched, or of which nothing is found: no name changes, and the time is the one of the name. *)
Theorem C71_exists : forall NEW nt vp lib gp ns k n s i search s' m,
  f_time NEW nt vp lib gp ns k n s i search = Time s' m ->
  nt (f_name (heap s i)) <> NONEXISTENT \/ search = false \/ w_ignore (f_flags (heap s i)) = true \/ (forall r, ~ found vp lib (f_name (heap s i)) r) ->
  m = nt (f_name (heap s i)) /\ table s' = table s /\ recorded ns (heap s) (heap s') (head_of (heap s) i) m.
Proof.
  intros NEW nt vp lib gp ns k n s i search s' m H C. assert (F : finish ns n s i (nt (f_name (heap s i))) = Time s' m).
  { destruct k as [|k]; cbn [f_time] in H; destruct (nt (f_name (heap s i)) =? NONEXISTENT) eqn:E; cbn [andb] in H; try exact H; apply Nat.eqb_eq in E;
    destruct search; cbn [andb] in H; try exact H; destruct (w_ignore (f_flags (heap s i))) eqn:W; cbn [negb] in H; try exact H;
    (destruct C as [C | [C | [C|C]]]; [congruence|discriminate|discriminate|]); rewrite (not_found _ _ _ C) in H; exact H. }
  destruct (finish_recorded _ _ _ _ _ _ _ F) as (-> & T & R). auto.
Qed.

Lemma noted s i t : let s1 := if t =? UNKNOWN then s else mkstate (put (heap s) i (with_mtime (heap s i) t)) (table s) in
  table s1 = table s /\ forall x, f_hname (heap s1 x) = f_hname (heap s x) /\ f_name (heap s1 x) = f_name (heap s x) /\ f_renamed (heap s1 x) = f_renamed (heap s x) /\ f_colon (heap s1 x) = f_colon (heap s x) /\ f_prev (heap s x) = f_prev (heap s1 x).
Proof.
  cbn zeta. destruct (t =? UNKNOWN); [auto 7|]. cbn [heap table]. split; [reflexivity|]. intros x. destruct (Nat.eq_dec x i) as [->|N]; [rewrite put_same|rewrite put_other by exact N]; auto 6.
Qed.
Lemma names_kept n s i to s' w : sound s -> known s i -> f_hname (heap s i) <> to -> rehash_file n s i to = Done s' w -> forall x, f_name (heap s' x) = f_name (heap s x).
Proof.
  intros S K N H x. destruct (step_cases _ _ _ _ _ _ S K N H) as (es & E & X). cbn zeta in *. pose proof (fun y => h1_cases n s i to es y E) as HC. set (h1 := hn (i :: es) to _) in *.
  assert (A : forall y, f_name (h1 y) = f_name (heap s y)). { intros y. rewrite HC. destruct (in_dec _ _ _); [|reflexivity]. cbn [with_hname f_name]. destruct (Nat.eq_dec y i) as [->|Q]; [rewrite put_same|rewrite put_other by exact Q]; reflexivity. }
  destruct (table s to) as [k|]; [|destruct X as (-> & _); apply A]. destruct X as (KI & _ & -> & _). cbn [heap]. destruct (Nat.eq_dec x i) as [->|Q]; [rewrite put_same; cbn [with_renamed f_name]; apply A|rewrite put_other by exact Q].
  destruct (Nat.eq_dec x k) as [->|Q']; [rewrite put_same; cbn [merged f_name]; apply A|rewrite put_other by exact Q'; apply A].
Qed.

(** The file is found in a directory that is not in GPATH: that name stands for it in the table, the old one for none; the name that recipes get is still the old one;
    the time is that of the file that was found, or what -o and -W say. *)
Theorem C71_found : forall NEW nt vp lib gp ns k n s i s' m d t, sound s -> known s i ->
  nt (f_name (heap s i)) = NONEXISTENT -> w_ignore (f_flags (heap s i)) = false -> let nm := d ++ "/"%char :: f_name (heap s i) in
  found vp lib (f_name (heap s i)) (nm, t) -> f_hname (heap s i) <> nm -> ~ In d gp ->
  f_time NEW nt vp lib gp ns k n s i true = Time s' m ->
  let j := now_at s i nm in
  (m = if (t =? OLD) || (t =? NEW) then t else nt nm) /\
  table s' nm = Some j /\ table s' (f_hname (heap s i)) = None /\ (forall x, x <> nm -> x <> f_hname (heap s i) -> table s' x = table s x) /\ sound s' /\
  (forall x y, resolves (heap s) x y -> resolves (heap s') x (if y =? i then j else y)) /\
  f_name (heap s' i) = f_name (heap s i) /\ f_mtime (heap s' (head_of (heap s') j)) = m.
Proof.
  intros NEW nt vp lib gp ns k n s i s' m d t S K NE W nm F HN NG H. cbn zeta.
  set (s1 := if t =? UNKNOWN then s else mkstate (put (heap s) i (with_mtime (heap s i) t)) (table s)).
  assert (X : exists s2 w g, rehash_file n s1 i nm = Done s2 w /\ check_renamed n (heap s2) i = Some g /\ finish ns n s2 g (if (t =? OLD) || (t =? NEW) then t else nt nm) = Time s' m).
  { apply found_result in F. destruct (directory d (f_name (heap s i))) as [D1 D2]. fold nm in D1, D2. cbn zeta in D2.
    assert (D3 : gpath_search gp nm (length d) = false) by (destruct (gpath_search gp nm (length d)) eqn:Q; [apply gpath_iff in Q; contradiction|reflexivity]).
    destruct k as [|k]; cbn [f_time] in H; rewrite NE, W in H; cbn [Nat.eqb NONEXISTENT andb negb] in H; rewrite F in H; fold s1 in H; rewrite D1, D2, D3 in H;
      (destruct (rehash_file n s1 i nm) as [s2 w| | |] eqn:R; try discriminate); (destruct (check_renamed n (heap s2) i) as [g|] eqn:G; [|discriminate]); eauto 8. }
  clear H. destruct X as (s2 & w & g & R & G & H). destruct (noted s i t) as (NT & NF). fold s1 in NT, NF.
  assert (S1 : sound s1) by (apply (sound_same s); [exact NT|intros x; destruct (NF x) as (A & _ & B & C & E); auto|exact S]).
  assert (HI : f_hname (heap s1 i) = f_hname (heap s i)) by apply NF. assert (K1 : known s1 i) by (unfold known; rewrite HI, NT; exact K).
  assert (HN1 : f_hname (heap s1 i) <> nm) by (rewrite HI; exact HN).
  destruct (C69_lookup _ _ _ _ _ _ S1 K1 HN1 R) as (L1 & L2 & L3 & L4 & L5). unfold target_of in *. rewrite NT in L1, L3, L4. fold (now_at s i nm) in *. set (j := now_at s i nm) in *.
  assert (R0 : resolves (heap s1) i i) by (apply rs_here; apply (proj1 S1 _ _ K1)).
  assert (GJ : g = j) by (apply (resolves_unique (heap s2) i); [eapply check_resolves; exact G|]; specialize (L4 _ _ R0); rewrite Nat.eqb_refl in L4; exact L4). subst g.
  destruct (finish_recorded _ _ _ _ _ _ _ H) as (M & T & REC). pose proof (finish_alike _ _ _ _ _ _ _ H) as AL.
  split; [exact M|]. rewrite T, <- HI. split; [exact L1|]. split; [exact L2|]. split; [exact L3|]. split.
  { apply (sound_same s2); [exact T| |exact L5]. intros x. destruct (AL x) as (A1 & _ & _ & _ & _ & A2 & A3 & A4 & _). auto. }
  split. { intros x y Q. apply (resolves_same (heap s2)); [intros z; apply (AL z)|]. apply L4. apply (resolves_same (heap s)); [intros z; apply (NF z)|exact Q]. }
  split. { destruct (AL i) as (_ & -> & _). rewrite (names_kept _ _ _ _ _ _ S1 K1 HN1 R). apply NF. }
  assert (HD : head_of (heap s') j = head_of (heap s2) j) by (unfold head_of; destruct (AL j) as (_ & _ & _ & _ & _ & -> & _); reflexivity). rewrite HD.
  destruct (REC (head_of (heap s2) j)) as [_ Q]. destruct (Q (lt_here _ _)) as (_ & Q1 & _). rewrite Q1, Bool.eqb_reflx, M. reflexivity.
Qed.

Lemma mtime_kept n s i to s' w : sound s -> known s i -> f_hname (heap s i) <> to -> table s to = None -> rehash_file n s i to = Done s' w -> forall x, f_mtime (heap s' x) = f_mtime (heap s x).
Proof.
  intros S K N TN H x. destruct (step_cases _ _ _ _ _ _ S K N H) as (es & E & X). cbn zeta in *. pose proof (h1_cases n s i to es x E) as HC. set (h1 := hn (i :: es) to _) in *. rewrite TN in X. destruct X as (-> & _). cbn [heap].
  rewrite HC. destruct (in_dec _ _ _); [|reflexivity]. cbn [with_hname f_mtime]. destruct (Nat.eq_dec x i) as [->|Q]; [rewrite put_same|rewrite put_other by exact Q]; reflexivity.
Qed.
(** The directory is in GPATH, and no rule has a file of the new name: it is the name for everything from now on, also in recipes. *)
Theorem C71_gpath : forall NEW nt vp lib gp ns k n s i s' m d t, sound s -> known s i ->
  nt (f_name (heap s i)) = NONEXISTENT -> w_ignore (f_flags (heap s i)) = false -> f_mtime (heap s i) = UNKNOWN -> let nm := d ++ "/"%char :: f_name (heap s i) in
  found vp lib (f_name (heap s i)) (nm, t) -> f_hname (heap s i) <> nm -> In d gp -> table s nm = None -> (t <> UNKNOWN \/ nt nm <> NONEXISTENT) ->
  f_time NEW nt vp lib gp ns k n s i true = Time s' m ->
  (m = if t =? UNKNOWN then nt nm else t) /\ f_name (heap s' i) = nm /\
  table s' nm = Some i /\ table s' (f_hname (heap s i)) = None /\ (forall x, x <> nm -> x <> f_hname (heap s i) -> table s' x = table s x) /\ sound s' /\
  (forall x y, resolves (heap s) x y -> resolves (heap s') x y).
Proof.
  intros NEW nt vp lib gp ns k n s i s' m d t S K NE W UM nm F HN IG TN UT H.
  set (s1 := if t =? UNKNOWN then s else mkstate (put (heap s) i (with_mtime (heap s i) t)) (table s)).
  assert (X : exists s2 w g k', rename_file n s1 i nm = Done s2 w /\ check_renamed n (heap s2) i = Some g /\ (if f_mtime (heap s2 g) =? UNKNOWN then f_time NEW nt vp lib gp ns k' n s2 g true else Time s2 (f_mtime (heap s2 g))) = Time s' m).
  { apply found_result in F. destruct (directory d (f_name (heap s i))) as [D1 D2]. fold nm in D1, D2. cbn zeta in D2.
    assert (D3 : gpath_search gp nm (length d) = true) by (apply gpath_iff; exact IG).
    destruct k as [|k]; cbn [f_time] in H; rewrite NE, W in H; cbn [Nat.eqb NONEXISTENT andb negb] in H; rewrite F in H; fold s1 in H; rewrite D1, D2, D3 in H;
      (destruct (rename_file n s1 i nm) as [s2 w| | |] eqn:R; try discriminate); (destruct (check_renamed n (heap s2) i) as [g|] eqn:G; try discriminate); eauto 8. }
  clear H. destruct X as (s2 & w & g & k' & R & G & H). destruct (noted s i t) as (NT & NF). fold s1 in NT, NF.
  assert (S1 : sound s1) by (apply (sound_same s); [exact NT|intros x; destruct (NF x) as (A & _ & B & C & E); auto|exact S]).
  assert (HI : f_hname (heap s1 i) = f_hname (heap s i)) by apply NF. assert (K1 : known s1 i) by (unfold known; rewrite HI, NT; exact K).
  assert (HN1 : f_hname (heap s1 i) <> nm) by (rewrite HI; exact HN). assert (TN1 : table s1 nm = None) by (rewrite NT; exact TN).
  destruct (rename_keeps _ _ _ _ _ _ R) as (s3 & R3 & T3 & NM & KP). destruct (C69_lookup _ _ _ _ _ _ S1 K1 HN1 R3) as (L1 & L2 & L3 & L4 & L5). unfold target_of in *. rewrite TN1 in L1, L4.
  pose proof (mtime_kept _ _ _ _ _ _ S1 K1 HN1 TN1 R3 i) as MK. destruct (proj1 L5 _ _ L1) as [HS RS].
  assert (GI : g = i). { destruct (KP i) as (_ & Q & _). rewrite RS in Q. rewrite (check_final _ _ _ Q) in G. congruence. } subst g.
  assert (S2 : sound s2) by (apply (sound_same s3); [exact T3| |exact L5]; intros x; destruct (KP x) as (A & B & C & E & _); auto).
  assert (N2 : f_name (heap s2 i) = nm) by congruence.
  assert (RES : forall x y, resolves (heap s) x y -> resolves (heap s2) x y).
  { intros x y Q. apply (resolves_same (heap s3)); [intros z; apply (KP z)|]. replace y with (if y =? i then i else y) by (destruct (Nat.eqb_spec y i); congruence). apply L4. apply (resolves_same (heap s)); [intros z; apply (NF z)|exact Q]. }
  assert (M2 : f_mtime (heap s2 i) = if t =? UNKNOWN then UNKNOWN else t). { destruct (KP i) as (_ & _ & _ & _ & ->). rewrite MK. unfold s1. destruct (t =? UNKNOWN); [exact UM|]. cbn [heap]. rewrite put_same. reflexivity. }
  rewrite M2 in H. destruct (Nat.eqb_spec t UNKNOWN) as [TU|TU].
  - destruct UT as [UT|UT]; [congruence|]. cbn [UNKNOWN Nat.eqb] in H.
    assert (FI : finish ns n s2 i (nt (f_name (heap s2 i))) = Time s' m). { rewrite <- N2 in UT. apply Nat.eqb_neq in UT. destruct k'; cbn [f_time] in H; rewrite UT in H; exact H. }
    destruct (finish_recorded _ _ _ _ _ _ _ FI) as (M & T & _). pose proof (finish_alike _ _ _ _ _ _ _ FI) as AL. rewrite N2 in M. rewrite T, T3, <- HI. destruct (AL i) as (_ & -> & _).
    split; [exact M|]. split; [exact N2|]. split; [exact L1|]. split; [exact L2|]. split; [intros x A B; rewrite (L3 x A B), NT; reflexivity|]. split.
    + apply (sound_same s2); [exact T| |exact S2]. intros x. destruct (AL x) as (A1 & _ & _ & _ & _ & A2 & A3 & A4 & _). auto.
    + intros x y Q. apply (resolves_same (heap s2)); [intros z; apply (AL z)|auto].
  - apply Nat.eqb_neq in TU. rewrite TU in H. injection H as <- <-. rewrite T3, <- HI. split; [reflexivity|]. split; [exact N2|]. split; [exact L1|]. split; [exact L2|]. split; [intros x A B; rewrite (L3 x A B), NT; reflexivity|]. auto.
Qed.

Lemma rename_name n s i to s' w e : rename_file n s i to = Done s' w -> forall s1, rehash_file n s i to = Done s1 w -> f_name (heap s' e) = f_name (heap s1 e) \/ f_name (heap s' e) = f_hname (heap s1 e).
Proof.
  intros H s1 R. unfold rename_file in H. rewrite R in H. destruct (entries n (heap s1) (Some i)) as [es|]; [|discriminate]. injection H as <-. cbn [heap]. clear R. set (F := fun (h : nat -> file) e => put h e (with_name (h e) (f_hname (h e)))).
  assert (A : forall l h, f_hname (fold_left F l h e) = f_hname (h e) /\ (f_name (fold_left F l h e) = f_name (h e) \/ f_name (fold_left F l h e) = f_hname (h e))).
  { induction l as [| b l IHl]; intros h; [auto|]. cbn [fold_left]. destruct (IHl (F h b)) as [-> B]. unfold F in *. destruct (Nat.eq_dec e b) as [->|N]; [rewrite put_same in *; cbn [with_name f_name f_hname] in *; tauto|rewrite put_other in * by exact N; auto]. }
  apply A.
Qed.
(** The same if there is a file of the new name already: it is the one that stays, and a time that it or the search gave is kept, the later of both. *)
Theorem C71_gpath_merge : forall NEW nt vp lib gp ns k n s i j s' m d t, sound s -> known s i ->
  nt (f_name (heap s i)) = NONEXISTENT -> w_ignore (f_flags (heap s i)) = false -> f_mtime (heap s i) = UNKNOWN -> let nm := d ++ "/"%char :: f_name (heap s i) in
  found vp lib (f_name (heap s i)) (nm, t) -> f_hname (heap s i) <> nm -> In d gp -> table s nm = Some j -> f_name (heap s j) = nm -> nt nm <> NONEXISTENT ->
  f_time NEW nt vp lib gp ns k n s i true = Time s' m ->
  let x := Nat.max (f_mtime (heap s j)) t in
  (m = if x =? UNKNOWN then nt nm else x) /\ f_name (heap s' i) = nm /\ f_name (heap s' j) = nm /\
  table s' nm = Some j /\ table s' (f_hname (heap s i)) = None /\ (forall x, x <> nm -> x <> f_hname (heap s i) -> table s' x = table s x) /\ sound s' /\
  (forall x y, resolves (heap s) x y -> resolves (heap s') x (if y =? i then j else y)).
Proof.
  intros NEW nt vp lib gp ns k n s i j s' m d t S K NE W UM nm F HN IG TJ NJ UT H. cbn zeta.
  set (s1 := if t =? UNKNOWN then s else mkstate (put (heap s) i (with_mtime (heap s i) t)) (table s)).
  assert (X : exists s2 w g k', rename_file n s1 i nm = Done s2 w /\ check_renamed n (heap s2) i = Some g /\ (if f_mtime (heap s2 g) =? UNKNOWN then f_time NEW nt vp lib gp ns k' n s2 g true else Time s2 (f_mtime (heap s2 g))) = Time s' m).
  { apply found_result in F. destruct (directory d (f_name (heap s i))) as [D1 D2]. fold nm in D1, D2. cbn zeta in D2.
    assert (D3 : gpath_search gp nm (length d) = true) by (apply gpath_iff; exact IG).
    destruct k as [|k]; cbn [f_time] in H; rewrite NE, W in H; cbn [Nat.eqb NONEXISTENT andb negb] in H; rewrite F in H; fold s1 in H; rewrite D1, D2, D3 in H;
      (destruct (rename_file n s1 i nm) as [s2 w| | |] eqn:R; try discriminate); (destruct (check_renamed n (heap s2) i) as [g|] eqn:G; try discriminate); eauto 8. }
  clear H. destruct X as (s2 & w & g & k' & R & G & H). destruct (noted s i t) as (NT & NF). fold s1 in NT, NF.
  assert (S1 : sound s1) by (apply (sound_same s); [exact NT|intros x; destruct (NF x) as (A & _ & B & C & E); auto|exact S]).
  assert (HI : f_hname (heap s1 i) = f_hname (heap s i)) by apply NF. assert (K1 : known s1 i) by (unfold known; rewrite HI, NT; exact K).
  assert (HN1 : f_hname (heap s1 i) <> nm) by (rewrite HI; exact HN). assert (TJ1 : table s1 nm = Some j) by (rewrite NT; exact TJ).
  destruct (rename_keeps _ _ _ _ _ _ R) as (s3 & R3 & T3 & NM & KP). destruct (C69_lookup _ _ _ _ _ _ S1 K1 HN1 R3) as (L1 & L2 & L3 & L4 & L5). unfold target_of in *. rewrite TJ1 in L1, L4.
  assert (JI : j <> i). { intros ->. destruct (proj1 S _ _ TJ) as [Q _]. exact (HN Q). }
  assert (MI : f_mtime (heap s1 i) = t). { unfold s1. destruct (Nat.eqb_spec t UNKNOWN) as [->|_]; [exact UM|]. cbn [heap]. rewrite put_same. reflexivity. }
  assert (MJ : f_mtime (heap s1 j) = f_mtime (heap s j)). { unfold s1. destruct (t =? UNKNOWN); [reflexivity|]. cbn [heap]. rewrite put_other by exact JI. reflexivity. }
  destruct (C69_merge _ _ _ _ _ _ _ S1 K1 HN1 R3 TJ1) as (_ & _ & HJ & NJ3 & _ & M1 & M2 & M3 & _). rewrite MI, MJ in *. assert (NJ1 : f_name (heap s1 j) = nm) by (destruct (NF j) as (_ & -> & _); exact NJ).
  assert (MX : f_mtime (heap s2 j) = Nat.max (f_mtime (heap s j)) t) by (destruct (KP j) as (_ & _ & _ & _ & ->); lia).
  assert (HS3 : f_hname (heap s3 i) = nm).
  { destruct (step_cases _ _ _ _ _ _ S1 K1 HN1 R3) as (es & E & X). cbn zeta in X. rewrite TJ1 in X. destruct X as (_ & _ & -> & _). cbn [heap]. rewrite put_same. cbn [with_renamed f_hname]. rewrite hn_in by (left; reflexivity). reflexivity. }
  assert (N2 : f_name (heap s2 i) = nm) by congruence.
  assert (N2J : f_name (heap s2 j) = nm) by (destruct (rename_name _ _ _ _ _ _ j R s3 R3) as [Q|Q]; congruence).
  assert (S2 : sound s2) by (apply (sound_same s3); [exact T3| |exact L5]; intros x; destruct (KP x) as (A & B & C & E & _); auto).
  assert (RES : forall x y, resolves (heap s) x y -> resolves (heap s2) x (if y =? i then j else y)).
  { intros x y Q. apply (resolves_same (heap s3)); [intros z; apply (KP z)|]. apply L4. apply (resolves_same (heap s)); [intros z; apply (NF z)|exact Q]. }
  assert (GJ : g = j). { assert (R0 : resolves (heap s) i i) by (apply rs_here; apply (proj1 S _ _ K)). specialize (RES _ _ R0). rewrite Nat.eqb_refl in RES. apply (resolves_unique (heap s2) i); [eapply check_resolves; exact G|exact RES]. } subst g.
  rewrite MX in H. destruct (Nat.max (f_mtime (heap s j)) t =? UNKNOWN) eqn:MU.
  - assert (FI : finish ns n s2 j (nt (f_name (heap s2 j))) = Time s' m). { rewrite <- N2J in UT. apply Nat.eqb_neq in UT. destruct k'; cbn [f_time] in H; rewrite UT in H; exact H. }
    destruct (finish_recorded _ _ _ _ _ _ _ FI) as (M & T & _). pose proof (finish_alike _ _ _ _ _ _ _ FI) as AL. rewrite N2J in M. rewrite T, T3, <- HI. destruct (AL i) as (_ & -> & _). destruct (AL j) as (_ & -> & _).
    split; [exact M|]. split; [exact N2|]. split; [exact N2J|]. split; [exact L1|]. split; [exact L2|]. split; [intros x A B; rewrite (L3 x A B), NT; reflexivity|]. split.
    + apply (sound_same s2); [exact T| |exact S2]. intros x. destruct (AL x) as (A1 & _ & _ & _ & _ & A2 & A3 & A4 & _). auto.
    + intros x y Q. apply (resolves_same (heap s2)); [intros z; apply (AL z)|auto].
  - injection H as <- <-. rewrite T3, <- HI. split; [reflexivity|]. split; [exact N2|]. split; [exact N2J|]. split; [exact L1|]. split; [exact L2|]. split; [intros x A B; rewrite (L3 x A B), NT; reflexivity|]. auto.
Qed.

(** No byte outside of the name is read if the names that searches give are longer than those searched. *)
Theorem C71_inside : forall NEW nt vp lib gp ns k n s i search, (forall x nm t, vp x = Some (nm, t) -> exists d, nm = d ++ "/"%char :: x) -> (forall x nm t, lib x = Some (nm, t) -> length x < length nm) ->
  f_time NEW nt vp lib gp ns k n s i search <> Outside.
Proof.
  intros NEW nt vp lib gp ns k n s i search V L. assert (FN : forall s i m, finish ns n s i m <> Outside) by (intros s0 i0 m0; unfold finish; destruct (entries _ _ _); discriminate).
  revert s i search. induction k as [|k IH]; intros s i search; cbn [f_time]; (destruct ((nt (f_name (heap s i)) =? NONEXISTENT) && search && negb (w_ignore (f_flags (heap s i)))); [|apply FN]);
    (match goal with |- (match ?X with _ => _ end) <> Outside => destruct X as [[nm t]|] eqn:F end; [|apply FN]);
    (assert (LT : (length nm <=? length (f_name (heap s i))) = false);
     [apply Nat.leb_gt; destruct (vp (f_name (heap s i))) as [r|] eqn:E; [injection F as ->; destruct (V _ _ _ E) as [d ->]; rewrite app_length; cbn [List.length]; lia|destruct (dash_l _); [exact (L _ _ _ F)|discriminate]]|]);
    rewrite LT; (destruct (gpath_search _ _ _); [destruct (rename_file _ _ _ _) as [s2 w| | |]; try discriminate|destruct (rehash_file _ _ _ _) as [s2 w| | |]; try discriminate; destruct (check_renamed _ _ _); [apply FN|discriminate]]);
    destruct (check_renamed _ _ _); try discriminate. destruct (_ =? _); [apply IH|discriminate].
Qed.

(** ** There is a result. *)
Lemma ends_enough h x : ends h x -> exists n, forall m, n <= m -> entries m h (Some x) <> None.
Proof.
  intros (e & L & P). induction L as [d | d p e P' L IH].
  - exists 2. intros [|[|m]] M; try lia. cbn [entries]. rewrite P. discriminate.
  - destruct (IH P) as (n & IH'). exists (Datatypes.S n). intros [|m] M; [lia|]. cbn [entries]. rewrite P'. destruct (entries m h (Some p)) eqn:E; [discriminate|]. destruct (IH' m ltac:(lia) E).
Qed.
Lemma entries_same h h' n : (forall x, f_prev (h' x) = f_prev (h x)) -> forall i, entries n h' i = entries n h i.
Proof. intros P. induction n as [|n IH]; intros [j|]; cbn [entries]; try reflexivity. rewrite P, IH. reflexivity. Qed.
Lemma finish_time ns n s i m : entries n (heap s) (Some (head_of (heap s) i)) <> None -> exists s', finish ns n s i m = Time s' m.
Proof. intros E. unfold finish. fold (head_of (heap s) i). destruct (entries _ _ _); [eauto|congruence]. Qed.
Lemma rehash_keeps n s i to s' w : sound s -> known s i -> f_hname (heap s i) <> to -> rehash_file n s i to = Done s' w ->
  (forall x, f_prev (heap s' x) = f_prev (heap s x)) /\ (f_colon (heap s' (now_at s i to)) = f_colon (heap s (now_at s i to)) \/ f_colon (heap s' (now_at s i to)) = f_colon (heap s i)) /\
  (f_renamed (heap s' i) = None \/ exists k, f_renamed (heap s' i) = Some k /\ f_renamed (heap s' k) = None).
Proof.
  intros S K N H. destruct (step_cases _ _ _ _ _ _ S K N H) as (es & E & X). cbn zeta in *. pose proof (fun y => h1_keeps n s i to es y E) as KP. destruct (proj1 S _ _ K) as [_ RI]. unfold now_at. set (h1 := hn (i :: es) to _) in *.
  destruct (table s to) as [k|] eqn:T.
  - destruct X as (KI & _ & -> & _). cbn [heap]. destruct (proj1 S _ _ T) as [_ RK]. split; [|split].
    + intros x. destruct (Nat.eq_dec x i) as [->|Q]; [rewrite put_same; apply KP|rewrite put_other by exact Q]. destruct (Nat.eq_dec x k) as [->|Q']; [rewrite put_same; apply KP|rewrite put_other by exact Q'; apply KP].
    + rewrite put_other by exact KI. rewrite put_same. cbn [merged f_colon]. destruct (KP k) as (_ & -> & _). destruct (KP i) as (_ & -> & _). destruct (f_colon (heap s k)); auto.
    + right. exists k. rewrite put_same. split; [reflexivity|]. rewrite put_other by exact KI. rewrite put_same. cbn [merged f_renamed]. destruct (KP k) as (_ & _ & ->). exact RK.
  - destruct X as (-> & _). cbn [heap]. split; [intros x; apply KP|]. split; [left; apply KP|]. left. destruct (KP i) as (_ & _ & ->). exact RI.
Qed.
(** If all lists of entries have an end: a file that is not found elsewhere has a time; one that is found in a directory not in GPATH has one unless make stops
    because rules of both kinds are merged (C69_fatal). *)
Theorem C71_result : forall NEW nt vp lib gp ns s i search, sound s -> known s i -> (forall x, ends (heap s) x) ->
  (nt (f_name (heap s i)) <> NONEXISTENT \/ search = false \/ w_ignore (f_flags (heap s i)) = true \/ (forall r, ~ found vp lib (f_name (heap s i)) r) \/
   exists d t, found vp lib (f_name (heap s i)) (d ++ "/"%char :: f_name (heap s i), t) /\ f_hname (heap s i) <> d ++ "/"%char :: f_name (heap s i) /\ ~ In d gp) ->
  exists n0, forall k n, n0 <= n -> (exists s' m, f_time NEW nt vp lib gp ns k n s i search = Time s' m) \/ f_time NEW nt vp lib gp ns k n s i search = Stopped Fatal.
Proof.
  intros NEW nt vp lib gp ns s i search S K EN C. destruct (ends_enough _ _ (EN (head_of (heap s) i))) as (n1 & N1).
  assert (FT : forall n m, n1 <= n -> exists s', finish ns n s i m = Time s' m) by (intros n m L; apply finish_time; apply N1; exact L).
  destruct (nt (f_name (heap s i)) =? NONEXISTENT) eqn:E1; [|exists n1; intros k n L; left; destruct (FT n (nt (f_name (heap s i))) L) as [s' F]; exists s', (nt (f_name (heap s i))); destruct k; cbn [f_time]; rewrite E1; exact F].
  destruct search; [|exists n1; intros k n L; left; destruct (FT n (nt (f_name (heap s i))) L) as [s' F]; exists s', (nt (f_name (heap s i))); destruct k; cbn [f_time]; rewrite E1; exact F].
  destruct (w_ignore (f_flags (heap s i))) eqn:W; [exists n1; intros k n L; left; destruct (FT n (nt (f_name (heap s i))) L) as [s' F]; exists s', (nt (f_name (heap s i))); destruct k; cbn [f_time]; rewrite E1, W; exact F|].
  destruct C as [C | [C | [C | [C|C]]]]; [apply Nat.eqb_eq in E1; congruence|discriminate|discriminate| |].
  { exists n1. intros k n L. left. destruct (FT n (nt (f_name (heap s i))) L) as [s' F]. exists s', (nt (f_name (heap s i))). apply not_found in C. destruct k; cbn [f_time]; rewrite E1, W; cbn [andb negb]; rewrite C; exact F. }
  destruct C as (d & t & F & HN & NG). set (nm := d ++ "/"%char :: f_name (heap s i)) in *. set (s1 := if t =? UNKNOWN then s else mkstate (put (heap s) i (with_mtime (heap s i) t)) (table s)).
  destruct (noted s i t) as (NT & NF). fold s1 in NT, NF.
  assert (S1 : sound s1) by (apply (sound_same s); [exact NT|intros x; destruct (NF x) as (A & _ & B & D & E); auto|exact S]).
  assert (HI : f_hname (heap s1 i) = f_hname (heap s i)) by apply NF. assert (K1 : known s1 i) by (unfold known; rewrite HI, NT; exact K). assert (HN1 : f_hname (heap s1 i) <> nm) by (rewrite HI; exact HN).
  destruct (C69_result s1 i nm S1 K1) as (n2 & N2). { intros x _. destruct (EN x) as (e & L & P). exists e. split; [revert L; apply later_ext; intros z; symmetry; apply NF|]. destruct (NF e) as (_ & _ & _ & _ & <-). exact P. }
  set (j := now_at s i nm). destruct (ends_enough _ _ (EN j)) as (n3 & N3).
  assert (X4 : forall x, exists n4, forall m, n4 <= m -> forall c, f_colon (heap s x) = Some c -> entries m (heap s) (Some c) <> None).
  { intros x. destruct (f_colon (heap s x)) as [c|]; [|exists 0; discriminate]. destruct (ends_enough _ _ (EN c)) as (n4 & N4). exists n4. intros m L c' Q. injection Q as <-. auto. }
  destruct (X4 j) as (n4 & N4). destruct (X4 i) as (n5 & N5).
  exists (1 + n1 + n2 + n3 + n4 + n5). intros k n L. apply found_result in F. destruct (directory d (f_name (heap s i))) as [D1 D2]. fold nm in D1, D2. cbn zeta in D2.
  assert (D3 : gpath_search gp nm (length d) = false) by (destruct (gpath_search gp nm (length d)) eqn:Q; [apply gpath_iff in Q; contradiction|reflexivity]).
  assert (EQ : f_time NEW nt vp lib gp ns k n s i true = match rehash_file n s1 i nm with Done s2 _ => match check_renamed n (heap s2) i with Some g => finish ns n s2 g (if (t =? OLD) || (t =? NEW) then t else nt nm) | None => NoEnd end | o => Stopped o end).
  { destruct k; cbn [f_time]; rewrite E1, W; cbn [andb negb]; rewrite F; fold s1; rewrite D1, D2, D3; reflexivity. }
  rewrite EQ. clear EQ. pose proof (C69_safe n s1 i nm S1 K1) as SA. specialize (N2 n ltac:(lia)). destruct (rehash_file n s1 i nm) as [s2 w| | |] eqn:R; try congruence; [left|right; reflexivity].
  destruct (rehash_keeps _ _ _ _ _ _ S1 K1 HN1 R) as (P1 & P2 & P3). assert (JJ : now_at s1 i nm = j) by (unfold j, now_at; rewrite NT; reflexivity). rewrite JJ in P2.
  destruct (C69_lookup _ _ _ _ _ _ S1 K1 HN1 R) as (_ & _ & _ & L4 & _). assert (R0 : resolves (heap s1) i i) by (apply rs_here; apply (proj1 S1 _ _ K1)). specialize (L4 _ _ R0). rewrite Nat.eqb_refl in L4. change (target_of s1 i nm) with (now_at s1 i nm) in L4. rewrite JJ in L4.
  assert (CR : exists g, check_renamed n (heap s2) i = Some g). { destruct P3 as [P3 | (g & P3 & P4)]; [exists i; apply check_final; exact P3|]. destruct n as [|n]; [lia|]. exists g. cbn [check_renamed]. rewrite P3. apply check_final. exact P4. }
  destruct CR as [g CR]. rewrite CR. apply check_resolves in CR. assert (g = j) by (eapply resolves_unique; eauto). subst g.
  destruct (finish_time ns n s2 j (if (t =? OLD) || (t =? NEW) then t else nt nm)) as [s' FI]; [|eauto].
  rewrite (entries_same (heap s) (heap s2)); [|intros x; rewrite P1; symmetry; apply NF]. unfold head_of. destruct (NF j) as (_ & _ & _ & CJ & _). destruct (NF i) as (_ & _ & _ & CI & _). destruct (f_colon (heap s2 j)) as [c|]; [|apply N3; lia].
  destruct P2 as [P2|P2]; [apply (N4 n); [lia|congruence]|apply (N5 n); [lia|congruence]].
Qed.

(** ** Times in the future. *)
Lemma look_detected NEW a : forall l, Forall (fun w => w = false) (look_all NEW (mkskew true a) l).
Proof. induction l as [| [[[now res] m] u] l IH]; cbn [look_all look_at detected negb andb]; [apply Forall_nil|apply Forall_cons; auto]. Qed.
Lemma look_step NEW a x l : exists a' (b : bool), look_all NEW (mkskew false a) (x :: l) = b :: look_all NEW (mkskew b a') l /\
  (b = true -> counts NEW x /\ limit x < time_of x) /\ (b = false -> (a' = a \/ a' = limit x) /\ (counts NEW x -> time_of x <= a')).
Proof.
  destruct x as [[[now res] m] u]. unfold look_at, counts, limit, time_of. cbn [look_all]. unfold look_at. cbn [detected negb andb adjusted counts limit time_of fst snd].
  destruct (Nat.eqb_spec m NONEXISTENT) as [E1|E1]; cbn [negb andb]; [exists a, false; split; [reflexivity|]; split; [discriminate|]; intros _; split; [auto|intros (X & _ & _); congruence]|].
  destruct (Nat.eqb_spec m NEW) as [E2|E2]; cbn [negb andb]; [exists a, false; split; [reflexivity|]; split; [discriminate|]; intros _; split; [auto|intros (_ & X & _); congruence]|].
  destruct u; cbn [negb andb]; [exists a, false; split; [reflexivity|]; split; [discriminate|]; intros _; split; [auto|intros (_ & _ & X); congruence]|].
  destruct (Nat.ltb_spec a m); [|exists a, false; split; [reflexivity|]; split; [discriminate|]; intros _; split; [auto|intros _; assumption]].
  destruct (Nat.ltb_spec (now + (res - 1)) m); [exists (now + (res - 1)), true; split; [reflexivity|]; split; [auto|discriminate]|exists (now + (res - 1)), false; split; [reflexivity|]; split; [discriminate|auto]].
Qed.
(** There is at most one warning, and it is about a file that is there, that make has not just made, and whose time is later than the clock. *)
Theorem C71_skew : forall NEW a l, count_occ Bool.bool_dec (look_all NEW (mkskew false a) l) true <= 1 /\
  forall p x, nth_error l p = Some x -> nth_error (look_all NEW (mkskew false a) l) p = Some true -> counts NEW x /\ limit x < time_of x.
Proof.
  intros NEW a l. revert a. induction l as [| x l IH]; intros a; [split; [cbn; lia|intros [|p] y A; discriminate]|].
  destruct (look_step NEW a x l) as (a' & b & -> & B1 & _). destruct b.
  - assert (Z : forall k, nth_error (look_all NEW (mkskew true a') l) k <> Some true). { intros k Q. apply nth_error_In in Q. pose proof (look_detected NEW a' l) as D. rewrite Forall_forall in D. specialize (D _ Q). discriminate. }
    split. { cbn [count_occ]. destruct (Bool.bool_dec true true); [|congruence]. assert (C : count_occ Bool.bool_dec (look_all NEW (mkskew true a') l) true = 0); [|lia]. apply count_occ_not_In. intros Q. apply In_nth_error in Q. destruct Q as [k Q]. exact (Z k Q). }
    intros [|p] y A Q; cbn [nth_error] in A, Q; [injection A as <-; auto|destruct (Z p Q)].
  - destruct (IH a') as [I1 I2]. split. { cbn [count_occ]. destruct (Bool.bool_dec false true); [discriminate|exact I1]. } intros [|p] y A Q; cbn [nth_error] in A, Q; [discriminate|]. exact (I2 p y A Q).
Qed.
(** If the clock does not go back, a file from the future does not go unnoticed. *)
Theorem C71_skew_complete : forall NEW l p x, nth_error l p = Some x -> counts NEW x -> limit x < time_of x ->
  (forall q y, q <= p -> nth_error l q = Some y -> limit y <= limit x) ->
  exists q, q <= p /\ nth_error (look_all NEW (mkskew false 0) l) q = Some true.
Proof.
  intros NEW l p x N C LT MONO. assert (A0 : 0 <= limit x) by lia. revert A0. generalize 0 as a. revert l N MONO. induction p as [| p IH]; intros l N MONO a A; (destruct l as [| y l]; [discriminate|]); destruct (look_step NEW a y l) as (a' & b & E & B1 & B2); rewrite E.
  - injection N as ->. destruct b; [exists 0; auto|]. destruct (B2 eq_refl) as [Q0 Q]; specialize (Q C); destruct Q0; lia.
  - destruct b; [exists 0; split; [lia|reflexivity]|]. destruct (B2 eq_refl) as [Q _]. assert (LY : limit y <= limit x) by (apply (MONO 0 y); [lia|reflexivity]).
    destruct (IH l N (fun q z L => MONO (Datatypes.S q) z ltac:(lia)) a') as (q & Q1 & Q2); [destruct Q as [Q|Q]; rewrite Q; assumption|]. exists (Datatypes.S q). split; [lia|exact Q2].
Qed.

(** ** What does not hold. *)
Definition known_times (l : list (str * nat)) (x : str) : nat := match find (fun p => str_eqb (fst p) x) l with Some p => snd p | None => NONEXISTENT end.
Definition known_names (l : list (str * (str * nat))) (x : str) : option (str * nat) := match find (fun p => str_eqb (fst p) x) l with Some p => Some (snd p) | None => None end.
Definition nothing : str -> option (str * nat) := fun _ => None.
Definition one (f : file) : state := mkstate (heap_of [f]) (table_of [(f_hname f, 0)]).
Lemma one_sound f : f_colon f = None -> f_renamed f = None -> sound (one f) /\ known (one f) 0.
Proof.
  intros C R. split; [split; cbn [heap table one]; intros x i; unfold table_of; cbn [find fst snd]; (destruct (str_eqb (f_hname f) x) eqn:E; [|discriminate])|].
  - intros Q. injection Q as <-. apply str_eqb_eq in E. split; [exact E|exact R].
  - intros d e Q. injection Q as <-. cbn [heap_of nth]. rewrite C. discriminate.
  - unfold known, one, table_of. cbn [heap heap_of nth table find fst snd]. rewrite str_eqb_refl. reflexivity.
Qed.
(** A library that is found under a name that is not longer than "-lNAME", as with "%.a" in .LIBPATTERNS: the byte in front of the name is read (src/remake.c:1400-1402). *)
Theorem C71_bounds_refuted : exists nt lib s, sound s /\ known s 0 /\ lib (s2l "-lfoo") = Some (s2l "foo.a", UNKNOWN) /\ nt (s2l "foo.a") = 9 /\
  f_time 99 nt nothing lib [] (fun _ => true) 5 5 s 0 true = Outside.
Proof.
  exists (known_times [(s2l "foo.a", 9)]), (known_names [(s2l "-lfoo", (s2l "foo.a", UNKNOWN))]), (one (plain (s2l "-lfoo"))).
  destruct (one_sound (plain (s2l "-lfoo")) eq_refl eq_refl) as [A B]. split; [exact A|]. split; [exact B|]. split; [reflexivity|]. split; reflexivity.
Qed.
(** A library that is found in a directory of GPATH keeps its name "-lNAME", though another file there gets the new one: what is compared with GPATH is "/usr/lib/lib". *)
Theorem C71_library_gpath_refuted : exists nt vp lib s s' m r r' k, sound s /\ known s 0 /\ sound r /\ known r 0 /\
  lib (s2l "-lfoo") = Some (s2l "/usr/lib/libfoo.a", UNKNOWN) /\ vp (s2l "x.h") = Some (s2l "/usr/lib/x.h", UNKNOWN) /\
  f_time 99 nt vp lib [s2l "/usr/lib"] (fun _ => true) 5 5 s 0 true = Time s' m /\ f_name (heap s' 0) = s2l "-lfoo" /\
  f_time 99 nt vp lib [s2l "/usr/lib"] (fun _ => true) 5 5 r 0 true = Time r' k /\ f_name (heap r' 0) = s2l "/usr/lib/x.h".
Proof.
  exists (known_times [(s2l "/usr/lib/libfoo.a", 9); (s2l "/usr/lib/x.h", 8)]), (known_names [(s2l "x.h", (s2l "/usr/lib/x.h", UNKNOWN))]), (known_names [(s2l "-lfoo", (s2l "/usr/lib/libfoo.a", UNKNOWN))]), (one (plain (s2l "-lfoo"))).
  eexists. eexists. exists (one (plain (s2l "x.h"))). eexists. eexists. destruct (one_sound (plain (s2l "-lfoo")) eq_refl eq_refl) as [A B]. destruct (one_sound (plain (s2l "x.h")) eq_refl eq_refl) as [C D].
  split; [exact A|]. split; [exact B|]. split; [exact C|]. split; [exact D|]. split; [reflexivity|]. split; [reflexivity|]. split; [reflexivity|]. split; [reflexivity|]. split; reflexivity.
Qed.

(** ** The hypotheses can be met. *)
(** A header in src, which is not in GPATH. *)
Example ex_found : exists s s' m, sound s /\ known s 0 /\ f_hname (heap s 0) <> s2l "src/x.h" /\ found (known_names [(s2l "x.h", (s2l "src/x.h", UNKNOWN))]) nothing (s2l "x.h") (s2l "src" ++ "/"%char :: s2l "x.h", UNKNOWN) /\
  f_time 99 (known_times [(s2l "src/x.h", 8)]) (known_names [(s2l "x.h", (s2l "src/x.h", UNKNOWN))]) nothing [s2l "lib"] (fun _ => true) 5 5 s 0 true = Time s' m /\ m = 8 /\ table s' (s2l "src/x.h") = Some 0 /\ f_name (heap s' 0) = s2l "x.h" /\ f_mtime (heap s' 0) = 8.
Proof.
  exists (one (plain (s2l "x.h"))). eexists. eexists. destruct (one_sound (plain (s2l "x.h")) eq_refl eq_refl) as [A B]. split; [exact A|]. split; [exact B|]. split; [discriminate|]. split; [apply fd_path; reflexivity|]. split; [reflexivity|]. repeat split; reflexivity.
Qed.
(** The same with GPATH. *)
Example ex_gpath : exists s s' m, sound s /\ known s 0 /\ f_mtime (heap s 0) = UNKNOWN /\ table s (s2l "src/x.h") = None /\
  f_time 99 (known_times [(s2l "src/x.h", 8)]) (known_names [(s2l "x.h", (s2l "src/x.h", UNKNOWN))]) nothing [s2l "lib"; s2l "src"] (fun _ => true) 5 5 s 0 true = Time s' m /\ m = 8 /\ table s' (s2l "src/x.h") = Some 0 /\ f_name (heap s' 0) = s2l "src/x.h".
Proof.
  exists (one (plain (s2l "x.h"))). eexists. eexists. destruct (one_sound (plain (s2l "x.h")) eq_refl eq_refl) as [A B]. split; [exact A|]. split; [exact B|]. split; [reflexivity|]. split; [reflexivity|]. split; [reflexivity|]. repeat split; reflexivity.
Qed.
(** A file that is there, with a second entry that has been updated already: its time stays; the first is not intermediate any more. *)
Example ex_exists :
  let a := mkfile (s2l "x") (s2l "x") None [] [] (Some 0) (Some 1) None 0 0 false no_flags (mkothers 0 true false false 0) in
  let b := mkfile (s2l "x") (s2l "x") None [] [] (Some 0) None None 5 0 false (mkflags false false false true false false false false false) no_others in
  exists s', f_time 99 (known_times [(s2l "x", 8)]) nothing nothing [] (fun _ => true) 5 5 (mkstate (heap_of [a; b]) (table_of [(s2l "x", 0)])) 0 true = Time s' 8 /\
    f_mtime (heap s' 0) = 8 /\ f_mtime (heap s' 1) = 5 /\ w_intermediate (f_others (heap s' 0)) = false.
Proof. eexists. split; [reflexivity|]. repeat split; reflexivity. Qed.
(** A header that some rule names with its directory. *)
Example ex_gpath_merge : exists s s' m, sound s /\ known s 0 /\ table s (s2l "src/x.h") = Some 1 /\ f_name (heap s 1) = s2l "src/x.h" /\
  f_time 99 (known_times [(s2l "src/x.h", 8)]) (known_names [(s2l "x.h", (s2l "src/x.h", UNKNOWN))]) nothing [s2l "src"] (fun _ => true) 5 5 s 0 true = Time s' m /\ m = 8 /\ table s' (s2l "src/x.h") = Some 1 /\ table s' (s2l "x.h") = None /\ f_name (heap s' 0) = s2l "src/x.h".
Proof.
  exists (mkstate (heap_of [plain (s2l "x.h"); plain (s2l "src/x.h")]) (table_of [(s2l "x.h", 0); (s2l "src/x.h", 1)])). eexists. eexists. split.
  { split; cbn [heap table]; intros n i; unfold table_of; cbn [find fst snd]; (destruct (str_eqb (s2l "x.h") n) eqn:E1; [|destruct (str_eqb (s2l "src/x.h") n) eqn:E2; [|discriminate]]).
    - intros Q. injection Q as <-. split; [apply str_eqb_eq; exact E1|reflexivity].
    - intros Q. injection Q as <-. split; [apply str_eqb_eq; exact E2|reflexivity].
    - intros d e Q. injection Q as <-. discriminate.
    - intros d e Q. injection Q as <-. discriminate. }
  split; [reflexivity|]. split; [reflexivity|]. split; [reflexivity|]. split; [reflexivity|]. repeat split; reflexivity.
Qed.
Example ex_result : let s := one (plain (s2l "x.h")) in let vp := known_names [(s2l "x.h", (s2l "src/x.h", UNKNOWN))] in
  sound s /\ known s 0 /\ (forall x, ends (heap s) x) /\ found vp nothing (f_name (heap s 0)) (s2l "src" ++ "/"%char :: f_name (heap s 0), UNKNOWN) /\ f_hname (heap s 0) <> s2l "src" ++ "/"%char :: f_name (heap s 0).
Proof.
  cbn zeta. destruct (one_sound (plain (s2l "x.h")) eq_refl eq_refl) as [A B]. split; [exact A|]. split; [exact B|]. split; [|split; [apply fd_path; reflexivity|discriminate]].
  intros x. exists x. split; [apply lt_here|]. destruct x as [| [|x]]; reflexivity.
Qed.
(** The searches of ex_found give longer names. *)
Example ex_inside : (forall x nm t, known_names [(s2l "x.h", (s2l "src/x.h", UNKNOWN))] x = Some (nm, t) -> exists d, nm = d ++ "/"%char :: x) /\
  (forall x nm t, known_names [(s2l "-lfoo", (s2l "/usr/lib/libfoo.a", UNKNOWN))] x = Some (nm, t) -> length x < length nm).
Proof.
  split; intros x nm t; unfold known_names; cbn [find fst snd].
  - destruct (str_eqb (s2l "x.h") x) eqn:E; [|discriminate]. apply str_eqb_eq in E. subst x. intros H. injection H as <- _. exists (s2l "src"). reflexivity.
  - destruct (str_eqb (s2l "-lfoo") x) eqn:E; [|discriminate]. apply str_eqb_eq in E. subst x. intros H. injection H as <- _. cbn. lia.
Qed.
(** Clock 10, then 12 twice: the second file is from the future, as is the third, but there is one warning. *)
Example ex_skew : look_all 99 (mkskew false 0) [(10, 1, 9, false); (12, 1, 30, false); (12, 1, 40, false)] = [false; true; false] /\ counts 99 (12, 1, 30, false) /\ limit (12, 1, 30, false) < time_of (12, 1, 30, false).
Proof. split; [reflexivity|]. split; [repeat split; discriminate|]. cbn. lia. Qed.

Print Assumptions C71_exists.
Print Assumptions C71_found.
Print Assumptions C71_gpath.
Print Assumptions C71_gpath_merge.
Print Assumptions C71_inside.
Print Assumptions C71_result.
Print Assumptions C71_skew.
Print Assumptions C71_skew_complete.
Print Assumptions C71_bounds_refuted.
Print Assumptions C71_library_gpath_refuted.
