(** Proofs about reading lines. *)
From Verif Require Import Base M_Line S_Line.
From Coq Require Import Lia.

Definition no_nl (u : str) := ~ In c_nl u.
Definition no_nul (u : str) := ~ In c_nul u.

Lemma upto_nul_id u : no_nul u -> upto_nul u = u.
Proof.
  unfold no_nul. induction u as [|c u IH]; intros H; [reflexivity|]. cbn [upto_nul].
  destruct (c =?c c_nul) eqn:E; [apply eqc_true in E; subst; exfalso; apply H; left; reflexivity|].
  f_equal. apply IH. intros F. apply H. right. exact F.
Qed.

(** Either no newline is read, or all is read through the first newline. *)
Lemma fgets_cases n t a b : fgets n t = (a, b) ->
  t = a ++ b /\ (no_nl a \/ exists u, a = u ++ [c_nl] /\ no_nl u).
Proof.
  revert t a b. induction n as [|n IH]; intros t a b; cbn [fgets].
  - intros H. injection H as <- <-. split; [reflexivity|]. left. intros [].
  - destruct t as [|c t]; [intros H; injection H as <- <-; split; [reflexivity|]; left; intros []|].
    destruct (c =?c c_nl) eqn:E.
    + apply eqc_true in E. subst. intros H. injection H as <- <-. split; [reflexivity|]. right. exists []. split; [reflexivity|intros []].
    + destruct (fgets n t) as [a' b'] eqn:F. intros H. injection H as <- <-.
      destruct (IH _ _ _ F) as [-> K]. split; [reflexivity|].
      assert (N : c <> c_nl) by (intros ->; rewrite eqc_refl in E; discriminate).
      destruct K as [K|[u [-> K]]].
      * left. intros [G|G]; [exact (N G)|exact (K G)].
      * right. exists (c :: u). split; [reflexivity|]. intros [G|G]; [exact (N G)|exact (K G)].
Qed.
Lemma fgets_some n t a b : 0 < n -> t <> [] -> fgets n t = (a, b) -> a <> [] /\ length b < length t.
Proof.
  intros N T H. assert (A : a <> []).
  { destruct n; [lia|]. destruct t as [|c t]; [congruence|]. cbn [fgets] in H. destruct (c =?c c_nl).
    - injection H as <- <-. discriminate.
    - destruct (fgets n t). injection H as <- <-. discriminate. }
  split; [exact A|]. destruct (fgets_cases _ _ _ _ H) as [-> _]. rewrite app_length. destruct a; [congruence|]. cbn. lia.
Qed.
Lemma fgets_len n t a b : fgets n t = (a, b) -> length a <= n.
Proof.
  revert t a b. induction n as [|n IH]; intros t a b; cbn [fgets].
  - intros H. injection H as <- <-. cbn. lia.
  - destruct t as [|c t]; [intros H; injection H as <- <-; cbn; lia|]. destruct (c =?c c_nl).
    + intros H. injection H as <- <-. cbn. lia.
    + destruct (fgets n t) as [a' b'] eqn:F. intros H. injection H as <- <-. apply IH in F. cbn. lia.
Qed.

(** The end of a line without its carriage return, backwards. *)
Definition strip (r : str) : str := match r with d :: r' => if d =?c c_cr then r' else r | [] => [] end.

Lemma odd_bs_app r x : odd_bs (r ++ c_nl :: x) = odd_bs r.
Proof. induction r as [|c r IH]; [reflexivity|]. cbn [odd_bs app]. destruct (c =?c c_bslash); [|reflexivity]. f_equal. exact IH. Qed.

Lemma cut_line_gen x : forall odd v, no_nl x ->
  cut odd (x ++ c_nl :: v) =
  if match x with [] => odd | _ => if forallb (fun c => c =?c c_bslash) x then xorb odd (odd_bs (rev x)) else odd_bs (rev x) end
  then let '(l, n, r) := cut false v in (x ++ c_nl :: l, S n, r) else (x, 1, v).
Proof.
  induction x as [|c x IH]; intros odd v N.
  - cbn [app cut]. rewrite eqc_refl. reflexivity.
  - cbn [app cut].
    assert (E : c =?c c_nl = false).
    { destruct (c =?c c_nl) eqn:E; [|reflexivity]. apply eqc_true in E. subst. exfalso. apply N. left. reflexivity. }
    rewrite E. rewrite IH by (intros G; apply N; right; exact G).
    assert (HH : match x with [] => (c =?c c_bslash) && negb odd | _ => if forallb (fun c0 => c0 =?c c_bslash) x then xorb ((c =?c c_bslash) && negb odd) (odd_bs (rev x)) else odd_bs (rev x) end
      = (if forallb (fun c0 => c0 =?c c_bslash) (c :: x) then xorb odd (odd_bs (rev (c :: x))) else odd_bs (rev (c :: x)))).
    { cbn [rev forallb].
      assert (G : forall r d, odd_bs (r ++ [d]) = if forallb (fun c0 => c0 =?c c_bslash) r then xorb (d =?c c_bslash) (odd_bs r) else odd_bs r).
      { clear. intros r d. induction r as [|e r IH]; cbn [app odd_bs forallb].
        - destruct (d =?c c_bslash); reflexivity.
        - destruct (e =?c c_bslash); [|reflexivity]. cbn [andb]. rewrite IH. destruct (forallb _ r); [|reflexivity]. destruct (d =?c c_bslash), (odd_bs r); reflexivity. }
      rewrite G.
      assert (R : forallb (fun c0 => c0 =?c c_bslash) (rev x) = forallb (fun c0 => c0 =?c c_bslash) x).
      { clear. induction x as [|e x IH]; [reflexivity|]. cbn [rev forallb]. rewrite forallb_app, IH. cbn [forallb]. rewrite andb_true_r. apply andb_comm. }
      rewrite R. destruct x as [|e x'].
      - cbn [rev forallb odd_bs]. destruct (c =?c c_bslash), odd; reflexivity.
      - destruct (forallb _ (e :: x')); destruct (c =?c c_bslash); destruct odd; destruct (odd_bs (rev (e :: x'))); reflexivity. }
    rewrite HH. destruct (if forallb _ (c :: x) then _ else _); [|reflexivity].
    destruct (cut false v) as [[l n] r]. reflexivity.
Qed.
Lemma cut_line x v : no_nl x ->
  cut false (x ++ c_nl :: v) = if odd_bs (rev x) then let '(l, n, r) := cut false v in (x ++ c_nl :: l, S n, r) else (x, 1, v).
Proof.
  intros N. rewrite cut_line_gen by exact N. destruct x; [reflexivity|].
  destruct (forallb _ (a :: x)); [destruct (odd_bs (rev (a :: x)))|]; reflexivity.
Qed.
Lemma cut_last x odd : no_nl x -> cut odd x = (x, 0, []).
Proof.
  revert odd. induction x as [|c x IH]; intros odd N; [reflexivity|]. cbn [cut].
  destruct (c =?c c_nl) eqn:E; [apply eqc_true in E; subst; exfalso; apply N; left; reflexivity|].
  rewrite IH; [reflexivity|]. intros G. apply N. right. exact G.
Qed.
Lemma dropcr_last x : no_nl x -> dropcr x = x.
Proof.
  induction x as [|c x IH]; intros N; [reflexivity|]. cbn [dropcr]. destruct x as [|d x]; [reflexivity|].
  assert (E : d =?c c_nl = false).
  { destruct (d =?c c_nl) eqn:E; [|reflexivity]. apply eqc_true in E. subst. exfalso. apply N. right. left. reflexivity. }
  rewrite E, andb_false_r. f_equal. apply IH. intros G. apply N. right. exact G.
Qed.
Lemma dropcr_nl v : dropcr (c_nl :: v) = c_nl :: dropcr v.
Proof. destruct v; reflexivity. Qed.
Lemma dropcr_line y v : no_nl y -> dropcr (y ++ c_nl :: v) = rev (strip (rev y)) ++ c_nl :: dropcr v.
Proof.
  induction y as [|c y IH]; intros N.
  - cbn [app rev strip]. apply dropcr_nl.
  - assert (N' : no_nl y) by (intros G; apply N; right; exact G).
    destruct y as [|d y].
    + cbn [app rev strip]. cbn [dropcr]. rewrite eqc_refl, andb_true_r. fold dropcr.
      destruct (c =?c c_cr); cbn [rev app]; destruct v; reflexivity.
    + assert (E : d =?c c_nl = false).
      { destruct (d =?c c_nl) eqn:E; [|reflexivity]. apply eqc_true in E. subst. exfalso. apply N'. left. reflexivity. }
      change (dropcr ((c :: d :: y) ++ c_nl :: v)) with
        (if (c =?c c_cr) && (d =?c c_nl) then dropcr ((d :: y) ++ c_nl :: v) else c :: dropcr ((d :: y) ++ c_nl :: v)).
      rewrite E, andb_false_r, (IH N').
      cbn [rev].
      assert (G : forall r e f, strip ((r ++ [e]) ++ [f]) = strip (r ++ [e]) ++ [f]).
      { clear. intros r e f. destruct r as [|g r]; cbn [app strip]; [destruct (e =?c c_cr); reflexivity|destruct (g =?c c_cr); reflexivity]. }
      rewrite G, rev_app_distr. reflexivity.
Qed.
Lemma strip_no_nl y : no_nl y -> no_nl (rev (strip (rev y))).
Proof.
  intros N G. apply in_rev in G. apply N. apply in_rev. destruct (rev y) as [|d r]; cbn [strip] in G; [exact G|].
  destruct (d =?c c_cr); [right|]; exact G.
Qed.

(** The finished part of the line is empty or ends in a newline. *)
Definition fin (d : str) := d = [] \/ exists x, d = x ++ [c_nl].

Lemma readline_cut : forall fuel size d cur n t,
  fin d -> (d = [] -> n = 0) -> no_nl cur -> no_nul t -> length t < fuel -> length (d ++ cur) + 2 <= size ->
  match readline fuel size (d ++ cur) n t with
  | Line l k r size' =>
      2 <= size' /\ no_nul r /\ length r <= length t /\ (d ++ cur = [] -> length r < length t) /\
      exists l' k' r', cut false (dropcr (cur ++ t)) = (l', k', r') /\ l = d ++ l' /\
        r' = dropcr r /\ (k = n + k' \/ k = 1 /\ n + k' = 0 /\ r = [])
  | Eof => d = [] /\ cur = [] /\ n = 0 /\ t = []
  | NoFuel => False
  end.
Proof.
  induction fuel as [|fuel IH]; intros size d cur n t D DN C T F Z; [lia|].
  cbn [readline]. destruct t as [|c0 t0].
  - rewrite app_nil_r. rewrite dropcr_last by exact C. rewrite cut_last by exact C.
    destruct n as [|n]; cbn [Nat.eqb].
    + destruct (d ++ cur) eqn:DC; [apply app_eq_nil in DC; destruct DC; auto|].
      split; [lia|]. split; [intros []|]. split; [lia|]. split; [intros G; discriminate|].
      exists cur, 0, []. rewrite <- DC. repeat split; auto.
    + split; [lia|]. split; [intros []|]. split; [lia|]. split.
      { intros G. apply app_eq_nil in G. destruct G as [G _]. apply DN in G. discriminate. }
      exists cur, 0, []. repeat split; auto.
  - set (t := c0 :: t0) in *.
    assert (TN : t <> []) by discriminate.
    destruct (fgets (size - length (d ++ cur) - 1) t) as [chunk t'] eqn:G.
    assert (SZ : 0 < size - length (d ++ cur) - 1) by lia.
    destruct (fgets_some _ _ _ _ SZ TN G) as [CN TL]. clear SZ.
    pose proof (fgets_len _ _ _ _ G) as CL.
    destruct (fgets_cases _ _ _ _ G) as [TE CC].
    assert (NC : no_nul chunk /\ no_nul t').
    { unfold no_nul in *. rewrite TE in T. split; intros K; apply T; apply in_or_app; auto. }
    destruct NC as [NC NT]. rewrite (upto_nul_id chunk NC).
    assert (CE : match chunk with [] => [c_nl] | _ => chunk end = chunk) by (destruct chunk; [congruence|reflexivity]).
    replace (match chunk with [] => [c_nl] | a :: l => a :: l end) with chunk by (destruct chunk; [congruence|reflexivity]).
    assert (TL' : length t' < fuel) by (cbn in F; unfold t in TL; cbn in TL; lia).
    clear F. rename TL' into F. rewrite TE. clear TE CE G. destruct CC as [CC|[u [-> U]]].
    + (* no newline yet *)
      destruct (rev ((d ++ cur) ++ chunk)) as [|c back] eqn:R.
      { apply (f_equal (@length ascii)) in R. rewrite rev_length, !app_length in R. destruct chunk; [congruence|cbn in R; lia]. }
      assert (CI : In c chunk).
      { rewrite rev_app_distr in R. destruct (rev chunk) as [|e q] eqn:Q.
        - apply (f_equal (@rev ascii)) in Q. rewrite rev_involutive in Q. cbn in Q. congruence.
        - cbn in R. injection R as -> _. apply in_rev. rewrite Q. left. reflexivity. }
      assert (E : c =?c c_nl = false).
      { destruct (c =?c c_nl) eqn:E; [|reflexivity]. apply eqc_true in E. subst. contradiction. }
      rewrite E. clear R E CI. rewrite <- app_assoc.
      assert (C' : no_nl (cur ++ chunk)) by (intros K; apply in_app_or in K; destruct K as [K|K]; [exact (C K)|exact (CC K)]).
      assert (Z' : length (d ++ cur ++ chunk) + 2 <= 2 * size) by (rewrite app_assoc, app_length; lia).
      pose proof (IH (2 * size) d (cur ++ chunk) n t' D DN C' NT ltac:(lia) Z') as K.
      destruct (readline fuel (2 * size) (d ++ cur ++ chunk) n t') as [l k r s'| |]; [| |exact K].
      * destruct K as (K1 & K2 & K3 & K4 & l' & k' & r' & K5 & K6). rewrite <- app_assoc in K5.
        split; [exact K1|]. split; [exact K2|]. rewrite app_length.
        assert (0 < length chunk) by (destruct chunk; [congruence|cbn; lia]).
        split; [lia|]. split; [lia|]. exists l', k', r'. split; [exact K5|]. exact K6.
      * destruct K as (_ & K & _). apply app_eq_nil in K. destruct K; congruence.
    + (* a newline *)
      assert (RV : rev ((d ++ cur) ++ u ++ [c_nl]) = c_nl :: rev (d ++ cur ++ u)).
      { rewrite (app_assoc (d ++ cur)), rev_app_distr. cbn. rewrite <- app_assoc. reflexivity. }
      rewrite RV, eqc_refl. clear RV.
      set (y := cur ++ u).
      assert (Y : no_nl y) by (intros K; apply in_app_or in K; destruct K as [K|K]; [exact (C K)|exact (U K)]).
      assert (SB : match rev (d ++ y) with d0 :: back' => if d0 =?c c_cr then back' else rev (d ++ y) | [] => rev (d ++ y) end
        = strip (rev y) ++ rev d).
      { rewrite rev_app_distr. destruct (rev y) as [|e q].
        - cbn [app strip]. destruct D as [->|[x ->]]; [reflexivity|]. rewrite rev_app_distr. reflexivity.
        - cbn [app strip]. destruct (e =?c c_cr); reflexivity. }
      rewrite SB. clear SB.
      set (x := rev (strip (rev y))).
      assert (X : no_nl x) by (apply strip_no_nl; exact Y).
      assert (SX : strip (rev y) = rev x) by (unfold x; rewrite rev_involutive; reflexivity).
      rewrite SX.
      assert (XL : length x <= length y).
      { unfold x. rewrite rev_length. unfold strip. rewrite <- (rev_length y). destruct (rev y) as [|e q]; [lia|]. destruct (e =?c c_cr); cbn; lia. }
      assert (OB : odd_bs (rev x ++ rev d) = odd_bs (rev x)).
      { destruct D as [->|[z ->]]; [cbn; rewrite app_nil_r; reflexivity|]. rewrite rev_app_distr. cbn. apply odd_bs_app. }
      rewrite OB.
      assert (RD : cur ++ (u ++ [c_nl]) ++ t' = y ++ c_nl :: t') by (unfold y; rewrite <- !app_assoc; reflexivity).
      rewrite RD, dropcr_line by exact Y. fold x. rewrite cut_line by exact X.
      destruct (odd_bs (rev x)).
      * assert (A : rev (c_nl :: rev x ++ rev d) = (d ++ x ++ [c_nl]) ++ []).
        { cbn. rewrite rev_app_distr, !rev_involutive, app_nil_r, <- app_assoc. reflexivity. }
        rewrite A.
        assert (LL : length ((d ++ x ++ [c_nl]) ++ []) < size).
        { unfold y in XL. rewrite app_nil_r, !app_length in *. cbn in *. lia. }
        set (size' := if 80 <=? size - length ((d ++ x ++ [c_nl]) ++ []) then size else 2 * size).
        assert (Z' : length ((d ++ x ++ [c_nl]) ++ []) + 2 <= size').
        { unfold size'. destruct (80 <=? _) eqn:L; [apply Nat.leb_le in L; lia|lia]. }
        assert (D' : fin (d ++ x ++ [c_nl])) by (right; exists (d ++ x); rewrite app_assoc; reflexivity).
        assert (DN' : d ++ x ++ [c_nl] = [] -> S n = 0).
        { intros K. apply app_eq_nil in K. destruct K as [_ K]. apply app_eq_nil in K. destruct K. discriminate. }
        pose proof (IH size' _ [] (S n) t' D' DN' (fun K => K) NT ltac:(lia) Z') as K.
        destruct (readline fuel size' _ (S n) t') as [l k r s'| |]; [| |exact K].
        -- destruct K as (K1 & K2 & K3 & K4 & l' & k' & r' & K5 & K6 & K7 & K8). cbn [app] in K5.
           rewrite K5. split; [exact K1|]. split; [exact K2|]. rewrite app_length.
           split; [lia|]. split; [rewrite app_length; cbn; lia|].
           exists (x ++ c_nl :: l'), (S k'), r'. split; [reflexivity|]. split; [rewrite K6, <- !app_assoc; reflexivity|].
           split; [exact K7|]. destruct K8 as [K8|[K8 [K9 _]]]; [left; lia|lia].
        -- destruct K as (K & _). apply DN' in K. discriminate.
      * split; [lia|]. split; [exact NT|]. rewrite !app_length. cbn. split; [lia|]. split; [lia|].
        exists x, 1, (dropcr t'). split; [reflexivity|]. split.
        { rewrite rev_app_distr, !rev_involutive. reflexivity. }
        split; [reflexivity|]. left. lia.
Qed.

Lemma dropcr_nil t : dropcr t = [] -> t = [].
Proof.
  induction t as [|c t IH]; [reflexivity|]. cbn [dropcr]. destruct t as [|d t]; [discriminate|].
  destruct ((c =?c c_cr) && (d =?c c_nl)); [intros H; apply IH in H; discriminate|discriminate].
Qed.

Lemma read_file_logical : forall fuel size n t, 2 <= size -> no_nul t -> length t < fuel ->
  exists ls, read_file fuel size n t = Some ls /\ logical n (dropcr t) ls.
Proof.
  induction fuel as [|fuel IH]; intros size n t Z T F; [lia|]. cbn [read_file].
  pose proof (readline_cut (S (length t)) size [] [] 0 t (or_introl eq_refl) (fun _ => eq_refl) (fun K => K) T ltac:(lia) ltac:(cbn; lia)) as K.
  cbn [app] in K. destruct (readline (S (length t)) size [] 0 t) as [l k r s'| |]; [| |contradiction].
  - destruct K as (K1 & K2 & K3 & K4 & l' & k' & r' & K5 & K6 & K7 & K8). specialize (K4 eq_refl).
    destruct (IH s' (n + k) r K1 K2 ltac:(lia)) as [ls [E L]]. rewrite E. exists ((n, l) :: ls). split; [reflexivity|].
    cbn [app] in K6. subst l' r'. apply (lo_line n _ l k' (dropcr r)); [|exact K5|].
    + intros N. apply dropcr_nil in N. subst t. cbn in K4. lia.
    + destruct K8 as [->|[-> [K8 ->]]]; [exact L|]. cbn [dropcr] in *. inversion L; subst; [constructor|congruence].
  - destruct K as (_ & _ & _ & ->). exists []. split; [reflexivity|]. constructor.
Qed.

Lemma strchr_nl_cases t : match strchr_nl t with
  | (a, None) => t = a /\ no_nl a | (a, Some b) => t = a ++ c_nl :: b /\ no_nl a end.
Proof.
  induction t as [|c t IH]; [split; [reflexivity|intros []]|]. cbn [strchr_nl]. destruct (c =?c c_nl) eqn:E.
  - apply eqc_true in E. subst. split; [reflexivity|intros []].
  - assert (N : c <> c_nl) by (intros ->; rewrite eqc_refl in E; discriminate).
    destruct (strchr_nl t) as [a [b|]]; destruct IH as [-> K]; (split; [reflexivity|intros [G|G]; [exact (N G)|exact (K G)]]).
Qed.
Lemma readstring_cut : forall fuel acc t, length t < fuel ->
  match readstring fuel acc t with
  | Line l _ r _ => exists l' k, cut false t = (l', k, r) /\ l = acc ++ l' /\ (t <> [] -> length r < length t)
  | _ => False
  end.
Proof.
  induction fuel as [|fuel IH]; intros acc t F; [lia|]. cbn [readstring].
  pose proof (strchr_nl_cases t) as K. destruct (strchr_nl t) as [a [b|]]; destruct K as [-> K].
  - rewrite app_length in F. cbn in F. rewrite cut_line by exact K. destruct (odd_bs (rev a)).
    + specialize (IH (acc ++ a ++ [c_nl]) b ltac:(lia)). destruct (readstring fuel _ b) as [l n r z| |]; [|contradiction|contradiction].
      destruct IH as (l' & k & E & -> & L). rewrite E. exists (a ++ c_nl :: l'), (S k). split; [reflexivity|].
      split; [rewrite <- !app_assoc; reflexivity|]. intros _. rewrite app_length. cbn.
      destruct b; [cbn in E; injection E as <- <- <-; cbn; lia|]. specialize (L ltac:(discriminate)). lia.
    + exists a, 1. split; [reflexivity|]. split; [reflexivity|]. intros _. rewrite app_length. cbn. lia.
  - rewrite cut_last by exact K. exists a, 0. split; [reflexivity|]. split; [reflexivity|]. destruct a; [congruence|cbn; lia].
Qed.
Lemma read_string_logical : forall fuel n t, length t < fuel ->
  exists ls, read_string fuel t = Some (map snd ls) /\ logical n t ls.
Proof.
  induction fuel as [|fuel IH]; intros n t F; [lia|]. cbn [read_string].
  destruct t as [|c t]; [exists []; split; [reflexivity|constructor]|].
  set (t' := c :: t) in *. pose proof (readstring_cut (S (length t')) [] t' ltac:(lia)) as K.
  destruct (readstring _ [] t') as [l k r z| |]; [|contradiction|contradiction].
  destruct K as (l' & k' & E & -> & L). specialize (L ltac:(discriminate)).
  destruct (IH (n + k') r ltac:(lia)) as [ls [R G]]. rewrite R. exists ((n, l') :: ls). split; [reflexivity|].
  apply (lo_line n _ l' k' r); [discriminate|exact E|exact G].
Qed.

Lemma logical_fun t n m : forall ls ls', logical n t ls -> logical m t ls' -> map snd ls = map snd ls' /\ (n = m -> ls = ls').
Proof.
  intros ls ls' H. revert m ls'. induction H as [n|n t l k r ls T C H IH]; intros m ls' H'.
  - inversion H'; subst; [auto|congruence].
  - inversion H' as [|t' l' k' r' ls'' T' C' H'']; subst; [congruence|]. rewrite C in C'. injection C' as <- <- <-.
    destruct (IH _ _ H'') as [A B]. cbn. split; [f_equal; exact A|]. intros ->. f_equal. apply B. reflexivity.
Qed.

(** The newlines of a text. *)
Definition newlines (t : str) : nat := count_occ ascii_dec t c_nl.
Lemma cut_parts odd t l k r : cut odd t = (l, k, r) ->
  exists p, t = p ++ r /\ k = newlines p /\ (p = l ++ [c_nl] \/ p = l /\ r = []).
Proof.
  revert odd l k r. induction t as [|c t IH]; intros odd l k r; cbn [cut].
  - intros H. injection H as <- <- <-. exists []. repeat split. right. split; reflexivity.
  - destruct (c =?c c_nl) eqn:E.
    + apply eqc_true in E. subst c. destruct odd.
      * destruct (cut false t) as [[l' k'] r'] eqn:C. intros H. injection H as <- <- <-. destruct (IH _ _ _ _ C) as (p & -> & -> & D).
        exists (c_nl :: p). split; [reflexivity|]. split; [reflexivity|]. destruct D as [->|[-> ->]]; auto.
      * intros H. injection H as <- <- <-. exists [c_nl]. split; [reflexivity|]. split; [reflexivity|]. left. reflexivity.
    + destruct (cut _ t) as [[l' k'] r'] eqn:C. intros H. injection H as <- <- <-. destruct (IH _ _ _ _ C) as (p & -> & -> & D).
      exists (c :: p). split; [reflexivity|]. split.
      * unfold newlines. rewrite count_occ_cons_neq; [reflexivity|]. intros ->. rewrite eqc_refl in E. discriminate.
      * destruct D as [->|[-> ->]]; auto.
Qed.
(** Where each line stands. *)
Lemma logical_place n t ls : logical n t ls -> forall m l, In (m, l) ls ->
  exists b a, t = b ++ l ++ a /\ m = n + newlines b /\ (b = [] \/ exists b', b = b' ++ [c_nl]) /\ (a = [] \/ exists a', a = c_nl :: a').
Proof.
  induction 1 as [n|n t l k r ls T C H IH]; intros m l0; [intros []|].
  destruct (cut_parts _ _ _ _ _ C) as (p & -> & -> & D). intros [G|G].
  - injection G as <- <-. exists []. destruct D as [->|[-> ->]].
    + exists (c_nl :: r). cbn. rewrite <- app_assoc. repeat split; [lia|auto|]. right. exists r. reflexivity.
    + exists []. cbn. repeat split; [lia|auto|auto].
  - destruct (IH _ _ G) as (b & a & -> & -> & B & A). destruct D as [->|[-> D]].
    + exists ((l ++ [c_nl]) ++ b), a. rewrite !app_assoc. split; [reflexivity|]. split.
      * unfold newlines. rewrite !count_occ_app. lia.
      * split; [|exact A]. right. destruct B as [->|[b' ->]]; [exists l; apply app_nil_r|]. exists ((l ++ [c_nl]) ++ b'). rewrite app_assoc. reflexivity.
    + apply app_eq_nil in D. destruct D as [-> D]. apply app_eq_nil in D. destruct D as [-> ->].
      inversion H as [|? ? ? ? ? TT]; subst; [destruct G|destruct (TT eq_refl)].
Qed.
(** The lines put together again give the text, but for its last newline. *)
Fixpoint join (ls : list str) : str :=
  match ls with [] => [] | [l] => l | l :: ls' => l ++ c_nl :: join ls' end.
Lemma logical_join n t ls : logical n t ls -> t = join (map snd ls) \/ t = join (map snd ls) ++ [c_nl].
Proof.
  induction 1 as [n|n t l k r ls T C H IH]; [left; reflexivity|].
  destruct (cut_parts _ _ _ _ _ C) as (p & -> & -> & D). destruct D as [->|[-> ->]].
  - inversion H as [|t' l' k' r' ls' T' C' H' E1 E2]; subst.
    + cbn. right. rewrite app_nil_r. reflexivity.
    + change (map snd ((n, l) :: (n + newlines (l ++ [c_nl]), l') :: ls')) with (l :: map snd ((n + newlines (l ++ [c_nl]), l') :: ls')).
      change (join (l :: map snd ((n + newlines (l ++ [c_nl]), l') :: ls'))) with (l ++ c_nl :: join (map snd ((n + newlines (l ++ [c_nl]), l') :: ls'))).
      rewrite <- !app_assoc. cbn [app].
      destruct IH as [E|E]; [left|right]; rewrite E at 1; reflexivity.
  - inversion H as [|? ? ? ? ? TT]; subst; [|destruct (TT eq_refl)]. left. cbn. apply app_nil_r.
Qed.
