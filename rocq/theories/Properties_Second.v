(** C67: second expansion and extra prerequisites. *)
From Coq Require Import Lia Sorted String List.
From Verif Require Import Base M_Text S_Text M_Implicit S_Implicit P_Implicit M_Auto S_Auto P_Auto P_Auto2 Properties_Auto M_Rules S_Rules P_Rules M_Second S_Second P_Second P_Second2.
Open Scope string_scope.
Open Scope list_scope.
Open Scope nat_scope.

Section General.
  Variable always : bool.
  Variable suffixes : list str.
  Variable ex : values -> str -> str.
  Variable split : str -> list dep.

  (** ** Each text is replaced by the names it expands to, in its place; $^, $|, $?, $+ and $< are made of what is
      already expanded and of the prerequisites to come that need no expansion, $* is the stem of the rule. *)
  Theorem C67_expand : forall f z f' z', Forall proper_item (f_deps f) -> expand_deps always suffixes ex split f z = Some (f', z') ->
    exists out, expands always suffixes ex split f [] (f_deps f) out /\ Forall2 (raised (normal_in out)) out (f_deps f').
  Proof.
    intros f z f' z' P H. unfold expand_deps in H. destruct (expand_loop _ _ _ _ _ _ _ _ _ _) as [[[out' stem'] z1]|] eqn:L; [|discriminate]. injection H as <- <-. cbn [f_deps].
    apply (loop_spec always suffixes ex split f (length (f_deps f)) _ _ [] [] (f_deps f)) in L; auto using raised_all_refl. destruct L as (out & E & R & _). eauto.
  Qed.
  (** ** It does not fail, whatever the expansion gives. *)
  Theorem C67_total : forall f z, expand_deps always suffixes ex split f z <> None.
  Proof. intros f z. unfold expand_deps. destruct (loop_total always suffixes ex split f (length (f_deps f)) (f_stem f) z [] (f_deps f)) as ([[a b] c] & ->). discriminate. Qed.
  (** ** Nothing is left to be expanded. *)
  Lemma expands_done f bef l out : expands always suffixes ex split f bef l out -> Forall (fun d => i_2nd d = false) bef -> Forall (fun d => i_2nd d = false) out.
  Proof.
    induction 1 as [bef | bef d l out P E IH | bef d l a out P V E IH]; intros B; auto; apply IH; apply Forall_app; split; auto.
    apply Forall_forall. intros x I. unfold named in I. apply in_map_iff in I. destruct I as (y & <- & _). reflexivity.
  Qed.
  Theorem C67_done : forall f z f' z', Forall proper_item (f_deps f) -> expand_deps always suffixes ex split f z = Some (f', z') ->
    Forall (fun d => i_2nd d = false) (f_deps f').
  Proof.
    intros f z f' z' P H. destruct (C67_expand f z f' z' P H) as (out & E & R). apply expands_done in E; [|constructor]. clear - E R. revert R. generalize (normal_in out). intros N R. induction R as [| x y l m (_ & A & _) R IH]; [constructor|]. inversion E; subst. constructor; [congruence|auto].
  Qed.
  (** ** Without a text to be expanded nothing changes. *)
  Lemma loop_none n f stem z bn rn : Forall (fun d => i_2nd d = false) rn -> length rn = n -> expand_loop always suffixes ex split n f stem z bn rn = Some (bn ++ rn, stem, z).
  Proof.
    revert bn rn. induction n as [| n IH]; intros bn [| d rn] F L; try discriminate; cbn [expand_loop]; [rewrite app_nil_r; reflexivity|]. inversion F as [| ? ? D F']; subst. rewrite D, IH by (auto; cbn in L; lia). rewrite <- app_assoc. reflexivity.
  Qed.
  Theorem C67_none : forall f z, Forall (fun d => i_2nd d = false) (f_deps f) -> expand_deps always suffixes ex split f z = Some (f, z).
  Proof.
    intros f z F. unfold expand_deps. rewrite loop_none by auto. cbn [app]. assert (E : existsb i_2nd (f_deps f) = false).
    { destruct (existsb i_2nd (f_deps f)) eqn:E; auto. apply existsb_exists in E. destruct E as (d & I & D). rewrite Forall_forall in F. rewrite (F d I) in D. discriminate. }
    rewrite E. destruct f. reflexivity.
  Qed.
End General.

(** ** Extra prerequisites cannot be seen in the automatic variables. *)
Lemma sorted_same (l m : list nat) : StronglySorted lt l -> StronglySorted lt m -> (forall j, In j l <-> In j m) -> l = m.
Proof.
  intros S. revert m. induction S as [| x l S IH F]; intros m T H.
  - destruct m as [| y m]; auto. destruct (proj2 (H y) (or_introl eq_refl)).
  - destruct T as [| y m T G]; [destruct (proj1 (H x) (or_introl eq_refl))|]. rewrite Forall_forall in F, G.
    assert (x = y). { destruct (proj1 (H x) (or_introl eq_refl)) as [E|E]; auto. destruct (proj2 (H y) (or_introl eq_refl)) as [E'|E']; auto. apply F in E'. apply G in E. lia. } subst y. f_equal.
    apply IH; auto. intros j. specialize (H j). cbn in H. split; intros I.
    + destruct (proj1 H (or_intror I)) as [E|E]; auto. subst. apply F in I. lia.
    + destruct (proj2 H (or_intror I)) as [E|E]; auto. subst. apply G in I. lia.
Qed.
Lemma listed_shown n w : listed_as n w -> w = shown n.
Proof.
  intros L. destruct L as [a m NE N NM | n M]; unfold shown.
  - assert (R : ar_name (a ++ c_lparen :: m ++ [c_rparen]) = true) by (apply ar_name_iff; exists a, m; auto). rewrite R. replace (from_paren (a ++ c_lparen :: m ++ [c_rparen])) with (Some (m ++ [c_rparen])); [symmetry; apply removelast_last|]. symmetry. apply from_paren_iff. exists a. auto.
  - destruct (ar_name n) eqn:E; [apply ar_name_iff in E; contradiction|reflexivity].
Qed.
Lemma listing_fun ds ds' (P Q : nat -> Prop) v w : (forall j, P j -> nth_error ds j = nth_error ds' j) -> (forall j, P j <-> Q j) -> listing ds P v -> listing ds' Q w -> v = w.
Proof.
  intros SAME PQ (js & ws & S1 & I1 & F1 & ->) (js' & ws' & S2 & I2 & F2 & ->). assert (js = js') by (apply sorted_same; auto; intros j; rewrite I1, I2; auto). subst js'. f_equal.
  assert (A : forall j, In j js -> nth_error ds j = nth_error ds' j) by (intros j I; apply SAME, I1, I). clear - F1 F2 A. revert ws' F2. induction F1 as [| j w js ws (d & D & L) F1 IH]; intros ws' F2; inversion F2 as [| ? w' ? ws2 (d' & D' & L') F2']; subst; auto.
  rewrite A in D by (left; auto). rewrite D in D'. injection D' as <-. rewrite (listed_shown _ _ L), (listed_shown _ _ L'). f_equal. apply IH; auto. intros j' I. apply A. right. exact I.
Qed.
Section Hidden.
  Variables ds es : list adep.
  Hypothesis H : Forall (fun d => a_ignored d = true) es.
  Lemma place_app j d : at_place (ds ++ es) j d <-> at_place ds j d.
  Proof.
    unfold at_place. split; intros (N & A & B).
    - destruct (Nat.lt_ge_cases j (length ds)) as [L|L]; [rewrite nth_error_app1 in N by auto; auto|]. rewrite nth_error_app2 in N by auto. apply nth_error_In in N. rewrite Forall_forall in H. apply H in N. congruence.
    - split; auto. rewrite nth_error_app1; auto. apply nth_error_Some. congruence.
  Qed.
  Lemma first_app j d : is_first (ds ++ es) j d <-> is_first ds j d.
  Proof. unfold is_first. rewrite place_app. split; intros (A & B); split; auto; intros k d' L P; apply (B k d' L), place_app, P. Qed.
  Lemma normal_app n : normal (ds ++ es) n <-> normal ds n.
  Proof. unfold normal. split; intros (k & d & A & B); exists k, d; split; auto; apply place_app; auto. Qed.
  Lemma place_same j d : at_place ds j d -> nth_error (ds ++ es) j = nth_error ds j.
  Proof. intros (N & _). apply nth_error_app1, nth_error_Some. congruence. Qed.
  Lemma hidden always z v ds1 z1 z' w ds2 z2 : set_lists always z (ds ++ es) = Some (v, ds1, z1) -> set_lists always z' ds = Some (w, ds2, z2) ->
    v_plus v = v_plus w /\ v_caret v = v_caret w /\ v_bar v = v_bar w /\ v_qmark v = v_qmark w.
  Proof.
    intros A B. apply C32_lists in A. apply C32_lists in B. destruct A as (A1 & A2 & A3 & A4), B as (B1 & B2 & B3 & B4).
    repeat split; (eapply listing_fun; [| |eassumption|eassumption]).
    - intros j (d & P & _). apply place_app in P. exact (place_same j d P).
    - intros j. unfold in_plus. split; intros (d & P & O); exists d; split; auto; apply place_app; auto.
    - intros j (d & (P & _) & _). apply place_app in P. exact (place_same j d P).
    - intros j. unfold in_caret. split; intros (d & P & O); exists d; (split; [apply first_app; auto|apply normal_app; auto]).
    - intros j (d & (P & _) & _). apply place_app in P. exact (place_same j d P).
    - intros j. unfold in_bar. split; intros (d & P & O); exists d; (split; [apply first_app; auto|intros K; apply O, normal_app; auto]).
    - intros j (d & (P & _) & _). apply place_app in P. exact (place_same j d P).
    - intros j. unfold in_qmark. split; intros (d & P & O & C); exists d; (split; [apply first_app; auto|split; auto; apply normal_app; auto]).
  Qed.
End Hidden.
Lemma less_hidden ds es : Forall (fun d => a_ignored d = true) es -> less_value (ds ++ es) = less_value ds.
Proof.
  intros H. assert (N : less_value es = []).
  { induction H as [| e m E F IH]; [reflexivity|]. cbn [less_value]. rewrite E, IH. destruct (a_order e); reflexivity. }
  induction ds as [| d l IH]; [exact N|]. cbn [app less_value]. rewrite IH. reflexivity.
Qed.
Lemma extra_all ex split v : Forall (fun d => a_ignored d = true) (map seen (expand_extra_prereqs ex split v)).
Proof. apply Forall_forall. intros x I. apply in_map_iff in I. destruct I as (y & <- & I). destruct v as [t|]; [|destruct I]. cbn [expand_extra_prereqs] in I. apply in_map_iff in I. destruct I as (u & <- & _). reflexivity. Qed.
(** The prerequisites of the target come first and are as they were; what is added has no effect on $+, $^, $|, $? and $<. *)
Theorem C67_extra_hidden : forall ex split global f, exists es, f_deps (snap_file ex split global f) = f_deps f ++ es /\
  less_value (map seen (f_deps (snap_file ex split global f))) = less_value (map seen (f_deps f)) /\
  forall always z v ds1 z1 z' w ds2 z2, set_lists always z (map seen (f_deps (snap_file ex split global f))) = Some (v, ds1, z1) ->
    set_lists always z' (map seen (f_deps f)) = Some (w, ds2, z2) ->
    v_plus v = v_plus w /\ v_caret v = v_caret w /\ v_bar v = v_bar w /\ v_qmark v = v_qmark w.
Proof.
  intros ex split global f.
  assert (X : exists es, f_deps (snap_file ex split global f) = f_deps f ++ es /\ Forall (fun d => a_ignored d = true) (map seen es)).
  { unfold snap_file. cbn [f_deps]. destruct (existsb _ _); [exists []; rewrite app_nil_r; split; [reflexivity|constructor]|].
    eexists. split; [reflexivity|]. destruct (f_vars f) as [v|]; [apply extra_all|]. destruct (f_target f); [apply extra_all|constructor]. }
  destruct X as (es & E & F). exists es. split; [exact E|]. rewrite E, map_app. split; [apply less_hidden; exact F|]. intros. eapply hidden; eauto.
Qed.
(** ** Which they are: for a target without variables of its own those of the global value; with its own value of
    .EXTRA_PREREQS those; always all of them, in order, or, if the target itself is one, none. *)
Definition extras (ex : str -> str) (split : str -> list dep) (t : str) (es : list item) : Prop :=
  Forall2 (fun x e => i_name e = d_name x /\ i_order e = d_order x /\ i_extra e = true /\ i_2nd e = false) (split (ex t)) es.
Theorem C67_extra : forall ex split global f t,
  (f_vars f = Some (Some t) \/ (f_vars f = None /\ f_target f = true /\ global = Some t)) ->
  (In (f_name f) (map d_name (split (ex t))) -> snap_file ex split global f = f) /\
  (~ In (f_name f) (map d_name (split (ex t))) -> exists es, f_deps (snap_file ex split global f) = f_deps f ++ es /\ extras ex split t es).
Proof.
  intros ex split global f t C. unfold snap_file.
  assert (P : match f_vars f with Some v => expand_extra_prereqs ex split v | None => if f_target f then expand_extra_prereqs ex split global else [] end
              = map (fun x => mkitem (d_name x) (d_order x) false false None true) (split (ex t))).
  { destruct C as [-> | (-> & -> & ->)]; reflexivity. }
  rewrite P. clear P C. set (es := map (fun x => mkitem (d_name x) (d_order x) false false None true) (split (ex t))).
  assert (X : existsb (fun d => str_eqb (f_name f) (i_name d)) es = true <-> In (f_name f) (map d_name (split (ex t)))).
  { rewrite existsb_exists, in_map_iff. subst es. split.
    - intros (x & I & E). apply str_eqb_eq in E. apply in_map_iff in I. destruct I as (y & <- & I). cbn in E. exists y. auto.
    - intros (y & E & I). eexists. split; [apply in_map; exact I|]. cbn. apply str_eqb_eq. auto. }
  split; intros I.
  - apply X in I. rewrite I. destruct f; reflexivity.
  - destruct (existsb _ es) eqn:E; [exfalso; apply I, X; reflexivity|]. exists es. split; [reflexivity|]. unfold extras, es. generalize (split (ex t)). intros l. induction l; constructor; auto.
Qed.
(** A file that is no target, or if there is no value, gets none. *)
Theorem C67_extra_none : forall ex split global f,
  (f_vars f = None /\ (f_target f = false \/ global = None)) \/ f_vars f = Some None -> snap_file ex split global f = f.
Proof. intros ex split global [n l st tg vs] C. cbn in C. unfold snap_file. cbn. destruct C as [(-> & [-> | ->]) | ->]; [|destruct tg|]; cbn; rewrite app_nil_r; reflexivity. Qed.

(** ** Concrete cases, with an expansion of automatic variables only. *)
Fixpoint mini (a : values) (t : str) : str :=
  match t with
  | c :: ((d :: t') as u) =>
      if c =?c "$"%char then
        (if d =?c "@"%char then t_at a else if d =?c "*"%char then t_star a else if d =?c "<"%char then t_less a
         else if d =?c "^"%char then v_caret (t_lists a) else if d =?c "+"%char then v_plus (t_lists a) else if d =?c "|"%char then v_bar (t_lists a) else []) ++ mini a t'
      else c :: mini a u
  | _ => t
  end.
Definition normals (t : str) : list dep := map (fun w => mkdep w false) (words t).
Definition it (n : string) : item := mkitem n false false false None false.
Definition later (n : string) : item := mkitem n false true false None false.
Definition static (n : string) (s : string) : item := mkitem n false true true (Some (s2l s)) false.
Definition no_sizes := mksizes 0 0 0.
Definition tgt (n : string) (l : list item) : file := mkfile n l None true None.
Definition names_of (r : option (file * sizes)) : option (list str) := match r with Some (f, _) => Some (map i_name (f_deps f)) | None => None end.

Example C67_example :
  let f := tgt "x.o" [it "a"; later "$<.h $@.d"; static "%.c $*/%" "x"; later "$^"] in
  Forall proper_item (f_deps f) /\ names_of (expand_deps false [] mini normals f no_sizes) = Some (map s2l ["a"; "a.h"; "x.o.d"; "x.c"; "x/x"; "a"; "a.h"; "x.o.d"; "x.c"; "x/x"]).
Proof.
  split; [|vm_compute; reflexivity]. repeat apply Forall_cons; try apply Forall_nil; (split; [cbn; try discriminate; auto|]); intros s E; try discriminate E. injection E as <-. intros c [<-|[]]. reflexivity.
Qed.
Example C67_none_example : Forall (fun d => i_2nd d = false) (f_deps (tgt "x" [it "a"; it "b"])) /\ expand_deps false [] mini normals (tgt "x" [it "a"; it "b"]) no_sizes = Some (tgt "x" [it "a"; it "b"], no_sizes).
Proof. split; [repeat constructor|]. apply C67_none. repeat constructor. Qed.
Example C67_extra_example :
  map i_name (f_deps (snap_file (fun t => t) normals (Some (s2l "e g")) (tgt "x" [it "a"]))) = map s2l ["a"; "e"; "g"] /\
  map i_name (f_deps (snap_file (fun t => t) normals (Some (s2l "e x")) (tgt "x" [it "a"]))) = map s2l ["a"] /\
  map i_name (f_deps (snap_file (fun t => t) normals (Some (s2l "e")) (mkfile "x" [it "a"] None true (Some (Some (s2l "own")))))) = map s2l ["a"; "own"].
Proof. vm_compute. auto. Qed.

(** ** The manual says: $^ and $+ are the prerequisites of rules that have already appeared.  Those of later rules are there
    too, if their rule has nothing to be expanded. *)
Theorem C67_later_refuted : exists f f' z', Forall proper_item (f_deps f) /\ nth_error (f_deps f) 0 = Some (later "$^") /\
  nth_error (f_deps f) 1 = Some (it "b") /\ expand_deps false [] mini normals f no_sizes = Some (f', z') /\ map i_name (f_deps f') = [s2l "b"; s2l "b"].
Proof.
  exists (tgt "x" [later "$^"; it "b"]). do 2 eexists. split; [repeat constructor; cbn; try discriminate|]. split; [reflexivity|]. split; [reflexivity|]. split; [vm_compute; reflexivity|]. vm_compute. reflexivity.
Qed.
(** ** In a static pattern rule only the first percent sign of a prerequisite is the stem: but all of them with a second expansion. *)
Theorem C67_percent_refuted : exists w s f' z', instance s (mkdep w false) = [mkdep (s2l "s-%") false] /\
  expand_deps false [] mini normals (tgt "x" [mkitem w false true true (Some s) false]) no_sizes = Some (f', z') /\ map i_name (f_deps f') = [s2l "s-s"].
Proof. exists (s2l "%-%"), (s2l "s"). do 2 eexists. split; [vm_compute; reflexivity|]. split; [vm_compute; reflexivity|]. vm_compute. reflexivity. Qed.
(** ** All targets are to have the prerequisites of the global .EXTRA_PREREQS that have no own value of it.  One with some other
    variable of its own does not get them, nor one with something expanded a second time. *)
Theorem C67_extra_refuted : exists f f' z', f_target f = true /\ f_vars f = None /\ f_name f <> s2l "e" /\
  expand_deps false [] mini normals f no_sizes = Some (f', z') /\
  map i_name (f_deps f') = [s2l "x.c"] /\ f_deps (snap_file (fun t => t) normals (Some (s2l "e")) f') = f_deps f'.
Proof.
  exists (tgt "x" [later "$@.c"]). do 2 eexists. split; [reflexivity|]. split; [reflexivity|]. split; [discriminate|]. split; [vm_compute; reflexivity|]. split; vm_compute; reflexivity.
Qed.

Print Assumptions C67_expand.
Print Assumptions C67_total.
Print Assumptions C67_done.
Print Assumptions C67_none.
Print Assumptions C67_extra_hidden.
Print Assumptions C67_extra.
Print Assumptions C67_extra_none.
Print Assumptions C67_later_refuted.
Print Assumptions C67_percent_refuted.
Print Assumptions C67_extra_refuted.
