(** Proofs about search paths. *)
From Verif Require Import Base M_Quote S_Quote M_Text S_Text P_Text P_Text3 M_Vpath S_Vpath.

(** ** Lists of directories *)

Lemma is_sep_iff : forall c, is_sep c = true <-> sep c.
Proof.
  intros c. unfold is_sep, isblank, sep. rewrite !orb_true_iff, !Ascii.eqb_eq. tauto.
Qed.
Lemma is_sep_false : forall c, is_sep c = false <-> ~ sep c.
Proof. intros c. rewrite <- is_sep_iff. destruct (is_sep c); split; congruence || tauto. Qed.

Lemma to_sep_all : forall v, (forall c, In c v -> ~ sep c) -> to_sep v = (v, []).
Proof.
  induction v as [|c v IH]; intros H; [reflexivity|]. cbn [to_sep].
  rewrite (proj2 (is_sep_false c)) by (apply H; left; reflexivity). rewrite IH by (intros x Hx; apply H; right; exact Hx). reflexivity.
Qed.
Lemma to_sep_app : forall v c s, (forall x, In x v -> ~ sep x) -> sep c -> to_sep (v ++ c :: s) = (v, c :: s).
Proof.
  induction v as [|x v IH]; intros c s H Hc; cbn [app to_sep].
  - rewrite (proj2 (is_sep_iff c) Hc). reflexivity.
  - rewrite (proj2 (is_sep_false x)) by (apply H; left; reflexivity). rewrite IH; [reflexivity| |exact Hc]. intros y Hy; apply H; right; exact Hy.
Qed.
Lemma skip_stop : forall c s, ~ sep c -> skip_seps (c :: s) = c :: s.
Proof. intros c s H. cbn [skip_seps]. rewrite (proj2 (is_sep_false c) H). reflexivity. Qed.
Lemma skip_go : forall c s, sep c -> skip_seps (c :: s) = skip_seps s.
Proof. intros c s H. cbn [skip_seps]. rewrite (proj2 (is_sep_iff c) H). reflexivity. Qed.
Lemma skip_length : forall s, length (skip_seps s) <= length s.
Proof. induction s as [|c s IH]; cbn [skip_seps]; [lia|]. destruct (is_sep c); cbn [length]; lia. Qed.

Lemma entries_pieces : forall s l, pieces s l -> forall n, length (skip_seps s) <= n -> entries n (skip_seps s) = flat_map entry l.
Proof.
  intros s l H. induction H as [|c s l Hc H IH|v Hv H|v c s l Hv H Hc HH IH]; intros n Hn.
  - destruct n; reflexivity.
  - rewrite skip_go in * by exact Hc. apply IH. exact Hn.
  - destruct v as [|x v]; [congruence|]. rewrite skip_stop in * by (apply H; left; reflexivity).
    destruct n as [|n]; [cbn in Hn; lia|]. cbn [entries]. rewrite to_sep_all by exact H. cbn [skip_seps flat_map]. destruct n; reflexivity.
  - destruct v as [|x v]; [congruence|]. cbn [app] in *. rewrite skip_stop in * by (apply H; left; reflexivity).
    destruct n as [|n]; [cbn in Hn; lia|]. cbn [entries].
    change (x :: v ++ c :: s) with ((x :: v) ++ c :: s). rewrite to_sep_app by assumption. cbn [flat_map].
    rewrite skip_go by exact Hc. rewrite IH; [reflexivity|].
    cbn [length] in Hn. rewrite app_length in Hn. cbn [length] in Hn. pose proof (skip_length s). lia.
Qed.

Lemma last_char_snoc : forall v c, last_char (v ++ [c]) = c.
Proof. intros v c. unfold last_char. apply last_last. Qed.
Lemma entry_dir : forall v l, dir_of v l -> entry v = l.
Proof.
  intros v l H. destruct H as [v Hv Hd| | | |v c Hc Hd]; try reflexivity.
  - unfold entry. rewrite last_char_snoc, app_length. cbn [length]. destruct v as [|x v]; [congruence|].
    replace (1 <? length (x :: v) + 1) with true by (symmetry; apply Nat.ltb_lt; cbn; lia). rewrite (proj2 (Ascii.eqb_eq _ _) eq_refl).
    cbn [andb]. rewrite removelast_last. destruct v; [|reflexivity]. destruct (x =?c c_dot) eqn:E; [|reflexivity].
    apply Ascii.eqb_eq in E. congruence.
  - unfold entry. rewrite last_char_snoc. replace (c =?c c_slash) with false by (symmetry; apply Ascii.eqb_neq; exact Hc).
    rewrite andb_false_r. destruct v as [|x v]; cbn [app] in *.
    + destruct (c =?c c_dot) eqn:E; [|reflexivity]. apply Ascii.eqb_eq in E. congruence.
    + destruct (v ++ [c]) eqn:E; [destruct v; discriminate|reflexivity].
Qed.
Definition dirs_of (s : str) : list str := entries (length (skip_seps s)) (skip_seps s).
Lemma directories_dirs : forall s ds, directories s ds -> dirs_of s = ds.
Proof.
  intros s ds (ps & dss & P & F & ->). unfold dirs_of. rewrite (entries_pieces s ps P) by lia.
  clear P. induction F as [|v l ps dss H F IH]; [reflexivity|]. cbn [flat_map concat]. rewrite IH, (entry_dir _ _ H). reflexivity.
Qed.

Lemma pieces_total : forall n s, length s <= n -> exists l, pieces s l.
Proof.
  induction n as [|n IH]; intros s H.
  - destruct s; [|cbn in H; lia]. eexists. constructor.
  - destruct s as [|c s]; [eexists; constructor|]. destruct (is_sep c) eqn:E.
    + destruct (IH s) as [l Hl]; [cbn in H; lia|]. exists l. constructor; [apply is_sep_iff; exact E|exact Hl].
    + assert (G : forall s, (forall x, In x s -> ~ sep x) \/ exists v c r, s = v ++ c :: r /\ (forall x, In x v -> ~ sep x) /\ sep c).
      { clear. induction s as [|x s [IH|(v & d & r & -> & A & B)]]; [left; intros x []| |]; destruct (is_sep x) eqn:E.
        - right. exists [], x, s. split; [reflexivity|]. split; [intros y []|apply is_sep_iff; exact E].
        - left. intros y [<-|Hy]; [apply is_sep_false; exact E|apply IH; exact Hy].
        - right. exists [], x, (v ++ d :: r). split; [reflexivity|]. split; [intros y []|apply is_sep_iff; exact E].
        - right. exists (x :: v), d, r. split; [reflexivity|]. split; [|exact B]. intros y [<-|Hy]; [apply is_sep_false; exact E|apply A; exact Hy]. }
      destruct (G s) as [K|(v & d & r & -> & A & B)].
      * exists [c :: s]. apply pc_last; [discriminate|]. intros x [<-|Hx]; [apply is_sep_false; exact E|apply K; exact Hx].
      * destruct (IH r) as [l Hl]; [cbn in H; rewrite app_length in H; cbn in H; lia|]. exists ((c :: v) :: l).
        apply (pc_more (c :: v) d r l); [discriminate| |exact B|exact Hl]. intros x [<-|Hx]; [apply is_sep_false; exact E|apply A; exact Hx].
Qed.
Lemma pieces_nonempty : forall s l, pieces s l -> ~ In [] l.
Proof. intros s l H. induction H; cbn; intuition congruence. Qed.
Lemma dir_of_total : forall v, v <> [] -> exists l, dir_of v l.
Proof.
  intros v H. destruct (exists_last H) as (w & c & ->). destruct (c =?c c_slash) eqn:E.
  - apply Ascii.eqb_eq in E. subst c. destruct w as [|x w]; [eexists; apply do_root|].
    destruct (list_eq_dec ascii_dec (x :: w) [c_dot]) as [K|K]; [injection K as -> ->; eexists; apply do_dot_slash|].
    eexists. apply do_slash; [discriminate|exact K].
  - apply Ascii.eqb_neq in E. destruct (list_eq_dec ascii_dec (w ++ [c]) [c_dot]) as [K|K]; [rewrite K; eexists; apply do_dot|].
    eexists. apply do_plain; assumption.
Qed.
Lemma directories_total : forall s, exists ds, directories s ds.
Proof.
  intros s. destruct (pieces_total _ s (le_n _)) as [ps P]. assert (F : exists dss, Forall2 dir_of ps dss).
  { pose proof (pieces_nonempty _ _ P) as N. clear P. induction ps as [|v ps IH]; [eexists; constructor|].
    destruct (dir_of_total v) as [l Hl]; [intros ->; apply N; left; reflexivity|]. destruct IH as [dss F]; [intros K; apply N; right; exact K|].
    exists (l :: dss). constructor; assumption. }
  destruct F as [dss F]. exists (concat dss), ps, dss. auto.
Qed.

(** ** Directives *)

Definition view (v : vpath) : str * option str :=
  match vp_percent v with
  | Some k => (firstn k (vp_pattern v), Some (skipn (S k) (vp_pattern v)))
  | None => (vp_pattern v, None)
  end.
Lemma view_pattern : forall p ds q k, unquote_pattern p = (q, k) -> view (mkvp q k ds) = pattern_of p.
Proof.
  intros p ds q k H. unfold unquote_pattern in H. pose proof (split_percent_pattern_of p) as E. unfold split_percent in E.
  destruct (find_percent p) as [b r] eqn:F. cbn [f_before f_rest] in *. unfold view. destruct r as [r|].
  - injection H as <- <-. cbn [vp_percent vp_pattern]. rewrite <- E. cbn [option_map].
    rewrite firstn_app, firstn_all, Nat.sub_diag, firstn_O, app_nil_r. f_equal. f_equal.
    rewrite skipn_app, skipn_all2 by lia. cbn [app]. replace (S (length b) - length b) with 1 by lia. destruct r; reflexivity.
  - injection H as <- <-. rewrite <- E. reflexivity.
Qed.
(** A pattern and the place of its percent are known from the view. *)
Definition good (v : vpath) : Prop := match vp_percent v with Some k => exists x y, vp_pattern v = x ++ c_percent :: y /\ length x = k | None => True end.
Lemma unquote_good : forall p ds q k, unquote_pattern p = (q, k) -> good (mkvp q k ds).
Proof.
  intros p ds q k H. unfold unquote_pattern in H. pose proof (split_percent_pattern_of p) as E. unfold split_percent, pattern_of in E.
  destruct (find_percent p) as [b r] eqn:F. cbn [f_before f_rest] in *. unfold good. destruct r as [r|].
  - injection H as <- <-. cbn [vp_percent vp_pattern].
    assert (FU : find_percent p = mkfound b (Some r)) by exact F.
    exists b. exists (tl r). split; [|reflexivity]. f_equal.
    unfold find_percent, find_char_unquote in F. clear E FU.
    assert (G : forall s rp, f_rest (find_char_unquote_loop c_percent rp s) = Some r -> exists y, r = c_percent :: y).
    { clear. induction s as [|c s IH]; intros rp H; cbn [find_char_unquote_loop] in H; [discriminate|].
      destruct (c =?c c_percent) eqn:E; [|exact (IH _ H)]. destruct (Nat.even (count_bs rp)); [|exact (IH _ H)].
      cbn in H. injection H as <-. apply Ascii.eqb_eq in E. subst c. eauto. }
    destruct (G p [] ltac:(rewrite F; reflexivity)) as [y ->]. reflexivity.
  - injection H as <- <-. exact I.
Qed.
Lemma same_view : forall a b, good a -> good b ->
  (opt_nat_eqb (vp_percent a) (vp_percent b) && str_eqb (vp_pattern a) (vp_pattern b) = true <-> view a = view b).
Proof.
  intros [pa ka da] [pb kb db] Ga Gb. unfold good, view in *. cbn [vp_percent vp_pattern] in *.
  rewrite andb_true_iff, str_eqb_eq. destruct ka as [k|], kb as [m|]; cbn [opt_nat_eqb].
  - rewrite Nat.eqb_eq. destruct Ga as (x & y & -> & <-), Gb as (x2 & y2 & -> & <-).
    assert (X : forall a b : str, firstn (length a) (a ++ c_percent :: b) = a) by (intros a b; rewrite firstn_app, firstn_all, Nat.sub_diag; cbn; apply app_nil_r).
    assert (Y : forall a b : str, skipn (S (length a)) (a ++ c_percent :: b) = b).
    { intros a b. rewrite skipn_app, skipn_all2 by lia. replace (S (length a) - length a) with 1 by lia. reflexivity. }
    rewrite !X, !Y. split.
    + intros [H1 H2]. assert (x = x2) by (rewrite <- (X x y), H2, H1; apply X). subst. apply app_inv_head in H2. injection H2 as ->. reflexivity.
    + intros H. injection H as -> ->. auto.
  - split; [intros [? _]; discriminate|discriminate].
  - split; [intros [? _]; discriminate|discriminate].
  - split; [intros [_ ->]; reflexivity|]. intros H. injection H as ->. auto.
Qed.

Definition keepb (d : directive) (v : vpath) : bool :=
  match d with
  | Clear => false
  | Remove q => let (p, k) := unquote_pattern q in negb (opt_nat_eqb k (vp_percent v) && str_eqb p (vp_pattern v))
  | Add _ _ => true
  end.
Definition new_of (d : directive) : list vpath :=
  match d with
  | Add p (x :: ds) => let (q, k) := unquote_pattern p in [mkvp q k (x :: ds)]
  | _ => []
  end.
Lemma fnt_word : forall s1 w r, all_space s1 -> w <> [] -> no_space w -> starts_space r -> find_next_token (s1 ++ w ++ r) = Some (w, r).
Proof.
  intros s1 w r H1 H2 H3 H4. unfold find_next_token. rewrite next_token_space by exact H1. destruct w as [|c w]; [congruence|].
  cbn [app]. rewrite next_token_stop by (apply H3; left; reflexivity). f_equal.
  assert (G : forall w, no_space w -> end_of_token (w ++ r) = (w, r)).
  { clear - H4. induction w as [|c w IH]; intros H; cbn [app].
    - destruct r as [|c r]; [reflexivity|]. cbn in H4 |- *. rewrite H4. reflexivity.
    - cbn [end_of_token]. rewrite (H c) by (left; reflexivity). rewrite IH; [reflexivity|]. intros x Hx. apply H. right. exact Hx. }
  exact (G (c :: w) H3).
Qed.
Lemma next_token_all : forall s, all_space s -> next_token s = [].
Proof. induction s as [|c s IH]; intros H; [reflexivity|]. cbn [next_token]. rewrite (H c) by (left; reflexivity). apply IH. intros x Hx. apply H. right. exact Hx. Qed.
Lemma starts_space_all : forall s, all_space s -> starts_space s.
Proof. intros [|c s] H; [exact I|]. apply H. left. reflexivity. Qed.
Lemma starts_space_app : forall s r, all_space s -> s <> [] -> starts_space (s ++ r).
Proof. intros [|c s] r H N; [congruence|]. apply H. left. reflexivity. Qed.

Lemma filter_all : forall (A : Type) (f : A -> bool) l, (forall x, In x l -> f x = true) -> filter f l = l.
Proof. intros A f. induction l as [|x l IH]; intros H; [reflexivity|]. cbn. rewrite (H x) by (left; reflexivity). rewrite IH; [reflexivity|]. intros y Hy. apply H. right. exact Hy. Qed.
Lemma filter_none : forall (A : Type) (f : A -> bool) l, (forall x, In x l -> f x = false) -> filter f l = [].
Proof. intros A f. induction l as [|x l IH]; intros H; [reflexivity|]. cbn. rewrite (H x) by (left; reflexivity). apply IH. intros y Hy. apply H. right. exact Hy. Qed.

Lemma line_step : forall t d l, reads t d -> vpath_line t l = new_of d ++ filter (keepb d) l.
Proof.
  intros t d l H. destruct H as [t H|s1 w s2 H1 H2 H3 H4|s1 w s2 r ds H1 H2 H3 H4 H5 H6 H7 H8]; unfold vpath_line.
  - unfold find_next_token. rewrite next_token_all by exact H. cbn. rewrite filter_none; [reflexivity|]. reflexivity.
  - rewrite fnt_word by (try assumption; apply starts_space_all; exact H4). rewrite next_token_all by exact H4.
    cbn [construct_vpath_list new_of app]. unfold keepb. destruct (unquote_pattern w) as [p k]. reflexivity.
  - rewrite fnt_word by (try assumption; apply starts_space_app; assumption). rewrite next_token_space by exact H5.
    destruct r as [|c r]; [congruence|]. rewrite next_token_stop by (destruct (isspace c) eqn:E; [exfalso; apply H7; exact E|reflexivity]).
    cbn [construct_vpath_list new_of keepb]. destruct (unquote_pattern w) as [p k]. pose proof (directories_dirs _ _ H8) as E. unfold dirs_of in E. rewrite E.
    rewrite filter_all by reflexivity. destruct ds; reflexivity.
Qed.
Lemma keep_iff : forall d v p, good v -> view v = pattern_of p -> (keepb d v = true <-> ~ cancels d p).
Proof.
  intros d v p G V. destruct d as [|q|q ds]; cbn [keepb cancels]; [split; [discriminate|tauto]| |split; [tauto|reflexivity]].
  destruct (unquote_pattern q) as [q' k] eqn:E. rewrite negb_true_iff, <- V, <- (view_pattern q [] q' k E).
  pose proof (same_view (mkvp q' k []) v (unquote_good q [] q' k E) G) as S. cbn [vp_percent vp_pattern] in S. rewrite <- S.
  destruct (opt_nat_eqb k (vp_percent v) && str_eqb q' (vp_pattern v)); split; congruence || tauto.
Qed.
Definition survives (ds : list directive) (v : vpath) : bool := forallb (fun d => keepb d v) ds.
Lemma filter_filter : forall (A : Type) (f g : A -> bool) l, filter f (filter g l) = filter (fun x => g x && f x) l.
Proof. intros A f g. induction l as [|x l IH]; [reflexivity|]. cbn. destruct (g x); cbn; rewrite IH; reflexivity. Qed.
Lemma lines_split : forall ts ds, Forall2 reads ts ds -> forall l,
  fold_left (fun l t => vpath_line t l) ts l = fold_left (fun l t => vpath_line t l) ts [] ++ filter (survives ds) l.
Proof.
  intros ts ds F. induction F as [|t d ts ds H F IH]; intros l.
  - cbn [fold_left app]. rewrite filter_all by reflexivity. reflexivity.
  - cbn [fold_left]. rewrite (line_step t d l H), (line_step t d [] H). cbn [filter]. rewrite app_nil_r.
    rewrite IH, (IH (new_of d)), filter_app, app_assoc, filter_filter. reflexivity.
Qed.
Lemma lists_in_force : forall ts ds, Forall2 reads ts ds -> forall L, in_force ds L ->
  map (fun v => (view v, vp_dirs v)) (rev (fold_left (fun l t => vpath_line t l) ts [])) = L.
Proof.
  intros ts ds F. induction F as [|t d ts ds H F IH]; intros L HL.
  - inversion HL. reflexivity.
  - cbn [fold_left]. rewrite (line_step t d [] H). cbn [filter]. rewrite app_nil_r, (lines_split ts ds F), rev_app_distr, map_app.
    inversion HL as [|p es later l Ne Hk HL' E1 E2|p es later l Hk HL' E1 E2|d' later l Hn HL' E1 E2]; subst.
    + rewrite (IH l HL'). destruct es as [|x es]; [congruence|]. cbn [new_of]. destruct (unquote_pattern p) as [q k] eqn:U.
      cbn [filter]. replace (survives ds {| vp_pattern := q; vp_percent := k; vp_dirs := x :: es |}) with true.
      * cbn [rev map app vp_dirs]. rewrite (view_pattern p (x :: es) q k U). reflexivity.
      * symmetry. apply forallb_forall. intros d Hd. apply (keep_iff d _ p); [exact (unquote_good p _ q k U)|exact (view_pattern p _ q k U)|exact (Hk d Hd)].
    + rewrite (IH L HL'). destruct es as [|x es]; [reflexivity|]. cbn [new_of]. destruct (unquote_pattern p) as [q k] eqn:U.
      cbn [filter]. replace (survives ds {| vp_pattern := q; vp_percent := k; vp_dirs := x :: es |}) with false; [reflexivity|].
      symmetry. apply Bool.not_true_iff_false. intros K. unfold survives in K. rewrite forallb_forall in K. destruct Hk as [Hk|(d & D1 & D2)]; [discriminate|].
      apply (keep_iff d _ p (unquote_good p (x :: es) q k U) (view_pattern p (x :: es) q k U)); [exact (K d D1)|exact D2].
    + rewrite (IH L HL'). destruct d as [| |p es]; [reflexivity|reflexivity|destruct (Hn p es eq_refl)].
Qed.
Lemma lists_good : forall ts l, Forall good l -> Forall good (fold_left (fun l t => vpath_line t l) ts l).
Proof.
  induction ts as [|t ts IH]; intros l H; [exact H|]. cbn [fold_left]. apply IH. unfold vpath_line, construct_vpath_list.
  assert (Fi : forall f, Forall good (filter f l)).
  { intros f. apply Forall_forall. intros x Hx. apply filter_In in Hx. rewrite Forall_forall in H. apply H. tauto. }
  destruct (find_next_token t) as [[w r]|]; [|constructor]. destruct (unquote_pattern w) as [q k] eqn:U. destruct (next_token r); [apply Fi|].
  destruct (entries _ _); [exact H|]. constructor; [exact (unquote_good w _ q k U)|exact H].
Qed.

Lemma reads_total : forall t, exists d, reads t d.
Proof.
  intros t. destruct (find_next_token t) as [[w r]|] eqn:E; [|exists Clear; constructor; exact (fnt_none _ E)].
  destruct (fnt_some _ _ _ E) as (s1 & H1 & -> & H2 & H3 & H4 & _). destruct (next_token_spec r) as (s2 & A & B & C).
  destruct (next_token r) as [|c r'] eqn:N.
  - exists (Remove w). apply r_remove; try assumption. rewrite app_nil_r in B. rewrite B. exact A.
  - destruct (directories_total (c :: r')) as [ds D]. exists (Add w ds). rewrite B. apply r_add; try assumption.
    + intros ->. cbn in B. subst r. cbn in H4. rewrite (C c r' eq_refl) in H4. discriminate.
    + discriminate.
    + cbn. rewrite (C c r' eq_refl). discriminate.
Qed.
Lemma in_force_total : forall ds, exists L, in_force ds L.
Proof.
  induction ds as [|d ds [L HL]]; [eexists; constructor|].
  destruct d as [|q|p es]; [exists L; apply if_other; [discriminate|exact HL]|exists L; apply if_other; [discriminate|exact HL]|].
  destruct es as [|x es]; [exists L; apply if_gone; [left; reflexivity|exact HL]|].
  destruct (unquote_pattern p) as [q k] eqn:U. destruct (survives ds (mkvp q k [])) eqn:S.
  - eexists. apply if_add; [discriminate| |exact HL]. intros d Hd. unfold survives in S. rewrite forallb_forall in S.
    apply (keep_iff d _ p (unquote_good p [] q k U) (view_pattern p [] q k U)). exact (S d Hd).
  - exists L. apply if_gone; [|exact HL]. right. unfold survives in S.
    assert (E : exists d, In d ds /\ keepb d (mkvp q k []) = false).
    { clear - S. induction ds as [|d ds IH]; cbn in S; [discriminate|]. destruct (keepb d _) eqn:K; [|exists d; split; [left; reflexivity|exact K]].
      destruct (IH S) as (e & E1 & E2). exists e. split; [right; exact E1|exact E2]. }
    destruct E as (d & D1 & D2). exists d. split; [exact D1|].
    destruct d as [|q2|]; [exact I| |discriminate]. cbn [keepb] in D2. cbn [cancels]. destruct (unquote_pattern q2) as [q3 k3] eqn:U3.
    rewrite negb_false_iff in D2.
    pose proof (same_view (mkvp q3 k3 []) (mkvp q k []) (unquote_good q2 [] q3 k3 U3) (unquote_good p [] q k U)) as S2.
    cbn [vp_percent vp_pattern] in S2. apply S2 in D2. rewrite (view_pattern _ _ _ _ U3), (view_pattern _ _ _ _ U) in D2. exact D2.
Qed.

(** ** The search *)

Lemma matches_iff : forall v file, good v -> (forall x, view v = (x, None) -> ~ In c_percent x) ->
  (vp_matches v file = true <-> exists stem, stem_of (view v) file stem).
Proof.
  intros v file G P. rewrite <- pat_test_iff. unfold vp_matches, view in *. destruct (vp_percent v) as [k|]; cbn [pat_test]; [reflexivity|].
  unfold pattern_matches. rewrite split_percent_pattern_of, (pattern_of_plain _ (P _ eq_refl)). reflexivity.
Qed.

Lemma last_slash_none : forall s, last_slash s = None -> ~ In c_slash s.
Proof.
  induction s as [|c s IH]; intros H; [intros []|]. cbn [last_slash] in H. destruct (last_slash s) as [[a b]|]; [discriminate|].
  destruct (c =?c c_slash) eqn:E; [discriminate|]. intros [->|K]; [|exact (IH eq_refl K)]. rewrite (proj2 (Ascii.eqb_eq _ _) eq_refl) in E. discriminate.
Qed.
Lemma last_slash_some : forall s a b, last_slash s = Some (a, b) -> s = a ++ c_slash :: b /\ ~ In c_slash b.
Proof.
  induction s as [|c s IH]; intros a b H; [discriminate|]. cbn [last_slash] in H. destruct (last_slash s) as [[a' b']|] eqn:E.
  - injection H as <- <-. destruct (IH _ _ eq_refl) as [-> K]. split; [reflexivity|exact K].
  - destruct (c =?c c_slash) eqn:C; [|discriminate]. apply Ascii.eqb_eq in C. injection H as <- <-. subst c. split; [reflexivity|exact (last_slash_none _ E)].
Qed.

Definition plain_dir (d : str) : Prop := exists v c, d = v ++ [c] /\ c <> c_slash.
Definition regular (file : str) : Prop := (forall y, file <> c_slash :: y) /\ (forall a b, file <> a ++ c_slash :: c_slash :: b).

Section Search.
  Variable T : Type.
  Variable lookup_file : str -> option (bool * option T).
  Variable listed : str -> str -> bool.
  Variable stat : str -> option T.
  Notation try_dirs := (try_dirs T lookup_file listed stat).
  Notation selective := (selective_vpath_search T lookup_file listed stat).
  Notation search_lists := (search_lists T lookup_file listed stat).
  Notation accepted := (accepted T lookup_file listed stat).
  Notation mentioned := (mentioned T lookup_file).

  Definition right (file : str) (vi i : nat) (dirs : list str) (r : vres T) : Prop :=
    match r with
    | Undefined _ => False
    | Nothing _ => forall d tm, In d dirs -> ~ accepted file d tm
    | Found _ n tm vi' pi => vi' = vi /\ exists k d, pi = i + k /\ nth_error dirs k = Some d /\ n = d ++ c_slash :: file /\
        accepted file d tm /\ forall j d', j < k -> nth_error dirs j = Some d' -> forall tm, ~ accepted file d' tm
    end.
  Lemma split_det : forall d file dir base dir' base', split_below d file dir base -> split_below d file dir' base' -> dir = dir' /\ base = base'.
  Proof.
    intros d file dir base dir' base' H1 H2. inversion H1; subst; inversion H2; subst.
    - auto.
    - exfalso. match goal with K : ~ In c_slash (_ ++ _) |- _ => apply K end. apply in_or_app. right. left. reflexivity.
    - exfalso. match goal with K : ~ In c_slash (_ ++ _) |- _ => apply K end. apply in_or_app. right. left. reflexivity.
    - match goal with K : _ ++ c_slash :: _ = _ ++ c_slash :: _ |- _ => rename K into E end.
      assert (G : forall x f y g, x ++ c_slash :: f = y ++ c_slash :: g -> ~ In c_slash f -> ~ In c_slash g -> x = y /\ f = g).
      { clear. induction x as [|a x IH]; intros f [|b y] g E Nf Ng; cbn in E.
        - injection E as <-. auto.
        - injection E as <- ->. destruct Nf. apply in_or_app. right. left. reflexivity.
        - injection E as -> <-. destruct Ng. apply in_or_app. right. left. reflexivity.
        - injection E as <- E. destruct (IH _ _ _ E Nf Ng) as [-> ->]. auto. }
      destruct (G _ _ _ _ E ltac:(assumption) ltac:(assumption)) as [-> ->]. auto.
  Qed.
  Lemma try_right : forall file dp fn vi,
    (forall d, split_below d file (d ++ match dp with Some x => c_slash :: x | None => [] end) fn) ->
    (match dp with Some x => plain_dir x | None => True end) ->
    (forall d, d ++ match dp with Some x => c_slash :: x | None => [] end ++ c_slash :: fn = d ++ c_slash :: file) ->
    forall dirs i, (forall d, In d dirs -> plain_dir d) ->
    right file vi i dirs (try_dirs (match lookup_file file with Some (true, _) => false | _ => true end) dp fn vi i dirs).
  Proof.
    intros file dp fn vi HS HP HN. set (nt := match lookup_file file with Some (true, _) => false | _ => true end).
    induction dirs as [|d dirs IH]; intros i HD; cbn [try_dirs]; [intros d tm []|].
    set (p := d ++ match dp with Some x => c_slash :: x | None => [] end).
    assert (PS : exists v c, p = v ++ [c] /\ c <> c_slash).
    { unfold p. destruct dp as [x|].
      - destruct HP as (v & c & -> & Hc). exists (d ++ c_slash :: v), c. split; [rewrite <- app_assoc; reflexivity|exact Hc].
      - destruct (HD d (or_introl eq_refl)) as (v & c & -> & Hc). exists v, c. split; [apply app_nil_r|exact Hc]. }
    destruct PS as (v & c & EP & Hc).
    assert (SL : negb (length p =? 0) && negb (last_char p =?c c_slash) = true).
    { rewrite EP, last_char_snoc, app_length. cbn [length]. replace (length v + 1 =? 0) with false by (symmetry; apply Nat.eqb_neq; lia).
      rewrite (proj2 (Ascii.eqb_neq _ _) Hc). reflexivity. }
    match goal with |- context [last_char ?q =?c c_slash] => change q with p end.
    rewrite SL. cbn [negb andb].
    assert (EN : p ++ c_slash :: fn = d ++ c_slash :: file) by (unfold p; rewrite <- app_assoc; apply HN). rewrite EN.
    assert (NT : nt = true <-> ~ target T lookup_file file).
    { unfold nt, target. destruct (lookup_file file) as [[[|] m]|].
      - split; [discriminate|]. intros K. exfalso. apply K. eauto.
      - split; [intros _ [m' K]; discriminate|reflexivity].
      - split; [intros _ [m' K]; discriminate|reflexivity]. }
    set (known := match lookup_file (d ++ c_slash :: file) with Some (t, _) => nt || t | None => false end).
    assert (KN : known = true -> mentioned file (d ++ c_slash :: file) (match lookup_file (d ++ c_slash :: file) with Some (_, m) => m | None => None end)).
    { unfold known. destruct (lookup_file (d ++ c_slash :: file)) as [[t m]|] eqn:E; [|discriminate]. intros K. exists t. split; [exact E|].
      apply orb_true_iff in K. destruct K as [K|K]; [right; apply NT; exact K|left; exact K]. }
    assert (KF : known = false -> forall tm, ~ mentioned file (d ++ c_slash :: file) tm).
    { unfold known. intros K tm (t & E & H). rewrite E in K. apply orb_false_iff in K. destruct K as [K1 K2].
      destruct H as [H|H]; [congruence|]. apply NT in H. congruence. }
    assert (NX : (forall tm, ~ accepted file d tm) -> right file vi (S i) dirs (try_dirs nt dp fn vi (S i) dirs) -> right file vi i (d :: dirs) (try_dirs nt dp fn vi (S i) dirs)).
    { intros NA R. destruct (try_dirs nt dp fn vi (S i) dirs) as [|n tm vi' pi|]; cbn [right] in *.
      - intros d' tm [<-|H]; [apply NA|apply R; exact H].
      - destruct R as (E & k & d' & E1 & E2 & E3 & E4 & E5). split; [exact E|]. exists (S k), d'. split; [lia|]. split; [exact E2|]. split; [exact E3|].
        split; [exact E4|]. intros j d'' Hj Hn. destruct j as [|j]; [injection Hn as <-; exact NA|]. exact (E5 j d'' ltac:(lia) Hn).
      - exact R. }
    specialize (IH (S i) (fun d' H => HD d' (or_intror H))).
    destruct known eqn:K.
    - cbn [orb]. cbn [right]. split; [reflexivity|]. exists 0, d. split; [lia|]. split; [reflexivity|]. split; [reflexivity|].
      split; [apply acc_mentioned; exact (KN eq_refl)|]. intros j d' Hj. lia.
    - cbn [orb]. specialize (KF eq_refl).
      destruct (listed p fn) eqn:L.
      + destruct (stat (d ++ c_slash :: file)) as [t|] eqn:S.
        * cbn [right]. split; [reflexivity|]. exists 0, d. split; [lia|]. split; [reflexivity|]. split; [reflexivity|].
          split; [exact (acc_exists _ _ _ _ _ _ _ _ t KF (HS d) L S)|]. intros j d' Hj. lia.
        * apply NX; [|exact IH]. intros tm H. inversion H as [tm' M|dir base t M SB LI ST]; subst; [exact (KF _ M)|congruence].
      + apply NX; [|exact IH]. intros tm H. inversion H as [tm' M|dir base t M SB LI ST]; subst; [exact (KF _ M)|].
        destruct (split_det _ _ _ _ _ _ SB (HS d)) as [-> ->]. fold p in LI. congruence.
  Qed.
  Lemma selective_right : forall v file vi, regular file -> (forall d, In d (vp_dirs v) -> plain_dir d) ->
    right file vi 0 (vp_dirs v) (selective v file vi).
  Proof.
    intros v file vi [R1 R2] HD. unfold selective_vpath_search. destruct (last_slash file) as [[[|c a] b]|] eqn:E.
    - apply last_slash_some in E. destruct E as [E _]. destruct (R1 _ E).
    - apply last_slash_some in E. destruct E as [E N]. apply try_right; [| | |exact HD].
      + intros d. rewrite E. constructor. exact N.
      + assert (NE : c :: a <> []) by discriminate. destruct (exists_last NE) as (w & x & W). exists w, x. split; [exact W|]. intros ->.
        apply (R2 w b). rewrite E, W, <- app_assoc. reflexivity.
      + intros d. rewrite E. reflexivity.
    - apply last_slash_none in E. apply try_right; [| | |exact HD].
      + intros d. rewrite app_nil_r. constructor. exact E.
      + exact I.
      + intros d. reflexivity.
  Qed.

  Definition lists (l : list vpath) := map (fun v => (view v, vp_dirs v)) l.
  Definition gdirs (g : option vpath) : list str := match g with Some v => vp_dirs v | None => [] end.
  (** The outcome of a search from the list number [n] on. *)
  Definition outcome (L : list ((str * option str) * list str)) (G : list str) (file : str) (n : nat) (r : vres T) : Prop :=
    match r with
    | Undefined _ => False
    | Nothing _ => forall vi pi d tm, place L G file vi pi d -> ~ accepted file d tm
    | Found _ name tm vi pi => n <= vi /\ exists d, place L G file (vi - n) pi d /\ name = d ++ c_slash :: file /\ accepted file d tm /\
        forall vi' pi' d', place L G file vi' pi' d' -> earlier vi' pi' (vi - n) pi -> forall tm', ~ accepted file d' tm'
    end.
  Lemma lists_outcome : forall file g, regular file -> (forall d, In d (gdirs g) -> plain_dir d) ->
    forall l n, Forall good l -> (forall v, In v l -> (forall x, view v = (x, None) -> ~ In c_percent x) /\ forall d, In d (vp_dirs v) -> plain_dir d) ->
    outcome (lists l) (gdirs g) file n (search_lists file g n l).
  Proof.
    intros file g RF HG. induction l as [|v l IH]; intros n HL HV; cbn [search_lists lists map].
    - destruct g as [g|]; cbn [gdirs] in *.
      + pose proof (selective_right g file n RF HG) as R. destruct (selective g file n) as [|name tm vi pi|]; cbn [right outcome] in *.
        * intros vi pi d tm P. inversion P as [vi' p ds pi' d' stem N|pi' d' N]; subst; [destruct vi; discriminate|]. apply R. exact (nth_error_In _ _ N).
        * destruct R as (-> & k & d & -> & E1 & E2 & E3 & E4). split; [lia|]. exists d. rewrite Nat.sub_diag. split; [apply (pl_general [] _ _ k d E1)|].
          split; [exact E2|]. split; [exact E3|]. intros vi' pi' d' P Q. inversion P as [vi2 p ds pi2 d2 stem N|pi2 d2 N]; subst; [destruct vi'; discriminate|].
          destruct Q as [Q|[_ Q]]; [cbn in Q; lia|]. exact (E4 pi' d' Q N).
        * exact R.
      + intros vi pi d tm P. inversion P as [vi' p ds pi' d' stem N|pi' d' N]; subst; [destruct vi; discriminate|destruct pi; discriminate].
    - inversion HL as [|? ? Gv Gl]; subst. destruct (HV v (or_introl eq_refl)) as [V1 V2]. pose proof (matches_iff v file Gv V1) as MI.
      assert (NEXT : (forall d tm, In d (vp_dirs v) -> (exists stem, stem_of (view v) file stem) -> ~ accepted file d tm) ->
        outcome ((view v, vp_dirs v) :: lists l) (gdirs g) file n (search_lists file g (S n) l)).
      { intros NA. specialize (IH (S n) Gl (fun w Hw => HV w (or_intror Hw))).
        assert (PS : forall vi pi d, place ((view v, vp_dirs v) :: lists l) (gdirs g) file vi pi d ->
          (vi = 0 /\ In d (vp_dirs v) /\ exists stem, stem_of (view v) file stem) \/ exists m, vi = S m /\ place (lists l) (gdirs g) file m pi d).
        { intros vi pi d P. inversion P as [vi' p ds pi' d' stem N SO E|pi' d' N]; subst.
          - destruct vi as [|m]; cbn in N; [injection N as <- <-; left; split; [reflexivity|]; split; [exact (nth_error_In _ _ E)|eauto]|].
            right. exists m. split; [reflexivity|]. exact (pl_list _ _ _ _ _ _ _ _ _ N SO E).
          - right. exists (length (lists l)). split; [reflexivity|]. apply pl_general. exact N. }
        destruct (search_lists file g (S n) l) as [|name tm vi pi|]; cbn [outcome] in *.
        - intros vi pi d tm P. destruct (PS _ _ _ P) as [(-> & I1 & I2)|(m & -> & P')]; [exact (NA d tm I1 I2)|exact (IH _ _ _ _ P')].
        - destruct IH as (LE & d & P & E1 & E2 & E3). split; [lia|]. exists d. replace (vi - n) with (S (vi - S n)) by lia. split; [|split; [exact E1|split; [exact E2|]]].
          + inversion P as [vi' p ds pi' d' stem N SO E|pi' d' N]; subst; [exact (pl_list ((view v, vp_dirs v) :: lists l) _ _ (S (vi - S n)) p ds _ _ stem N SO E)|].
            exact (pl_general ((view v, vp_dirs v) :: lists l) _ _ _ _ N).
          + intros vi' pi' d' P' Q tm'. destruct (PS _ _ _ P') as [(-> & I1 & I2)|(m & -> & P'')]; [exact (NA d' tm' I1 I2)|].
            apply (E3 m pi' d' P''). destruct Q as [Q|[Q1 Q2]]; [left; lia|right; split; [lia|exact Q2]].
        - exact IH. }
      destruct (vp_matches v file) eqn:M.
      + pose proof (selective_right v file n RF V2) as R. destruct (selective v file n) as [|name tm vi pi|] eqn:S; cbn [right] in R.
        * apply NEXT. intros d tm Hd _. apply R. exact Hd.
        * destruct (proj1 MI eq_refl) as [stem ST]. destruct R as (-> & k & d & -> & E1 & E2 & E3 & E4). split; [lia|]. exists d. rewrite Nat.sub_diag. cbn [Nat.add].
          split; [apply (pl_list ((view v, vp_dirs v) :: lists l) _ _ 0 (view v) (vp_dirs v) k d stem eq_refl ST E1)|]. split; [exact E2|]. split; [exact E3|].
          intros vi' pi' d' P Q. destruct Q as [Q|[-> Q]]; [lia|]. inversion P as [vi2 p ds pi2 d2 stem2 N S2 N2|pi2 d2 N]; subst.
          cbn in N. injection N as <- <-. exact (E4 pi' d' Q N2).
        * destruct R.
      + apply NEXT. intros d tm _ K. apply MI in K. discriminate.
  Qed.
End Search.
