(** The tests of S_MtimeCheck succeed for all inputs, by the theorems of C71; so those of W_Mtime must. *)
From Coq Require Import Lia String List NArith.
From Verif Require Import Base M_Rename S_Rename P_Rename Properties_Rename S_RenameCheck W_Random Properties_RenameCheck M_Mtime S_Mtime P_Mtime Properties_Mtime S_MtimeCheck W_Mtime.
Open Scope string_scope.
Open Scope list_scope.
Open Scope nat_scope.

Lemma alike_rest f g : alike f g -> rest_eqb f g = true.
Proof.
  intros (A1 & A2 & _ & A3 & _ & A4 & A5 & A6 & _ & _ & A7 & _). unfold rest_eqb. rewrite A1, A2, A3, A4, A5, A6, A7, !str_eqb_refl, !opt_refl, strs_refl, flags_refl. reflexivity.
Qed.
Lemma recorded_test n ns h h' hd m addrs : recorded ns h h' hd m -> recordedb n ns h h' hd m addrs = true.
Proof.
  intros R. unfold recordedb. destruct (chain n h hd) as [es|] eqn:C; [|reflexivity]. apply chain_later in C. destruct C as [C _]. apply forallb_forall. intros e _. destruct (R e) as [R1 R2]. destruct (memb e es) eqn:M.
  - apply memb_in, C in M. destruct (R2 M) as (A & B & D). rewrite (alike_rest _ _ A), B, Nat.eqb_refl. cbn [andb].
    assert (G : negb (m =? NONEXISTENT) && ns e && negb (w_tried (f_flags (h e))) = true <-> m <> NONEXISTENT /\ ns e = true /\ w_tried (f_flags (h e)) = false) by (rewrite !andb_true_iff, !negb_true_iff, Nat.eqb_neq; tauto).
    apply Bool.eqb_true_iff. apply Bool.eq_true_iff_eq. rewrite D, <- G. destruct (negb (m =? NONEXISTENT) && ns e && negb (w_tried (f_flags (h e)))), (w_intermediate (f_others (h e))); cbn; intuition congruence.
  - assert (N : ~ later h hd e) by (intros L; apply C, memb_in in L; congruence). rewrite (R1 N), Nat.eqb_refl, others_refl, alike_rest; [reflexivity|]. repeat split; reflexivity.
Qed.
Lemma foundb_iff vp lib name r : foundb vp lib name = Some r -> found vp lib name r.
Proof.
  unfold foundb. destruct (vp name) as [q|] eqn:V; [intros H; injection H as <-; apply fd_path; exact V|]. destruct name as [| a [| b rest]]; try discriminate.
  - destruct a as [[] [] [] [] [] [] [] []]; discriminate.
  - destruct a as [[] [] [] [] [] [] [] []]; try discriminate. destruct b as [[] [] [] [] [] [] [] []]; try discriminate. intros L. eapply fd_lib; eauto.
Qed.
Lemma foundb_none vp lib name : foundb vp lib name = None -> forall r, ~ found vp lib name r.
Proof. intros H r [q E | q rest E -> L]; unfold foundb in H; rewrite E in H; congruence. Qed.

Section Check.
  Variables (NEW : nat) (nt : str -> nat) (vp lib : str -> option (str * nat)) (gp : list str) (ns : nat -> bool) (n : nat) (h : nat -> file) (l : list (str * nat)) (i : nat) (search : bool) (d : str).
  Variables (names : list str) (addrs : list nat).
  Lemma others_test s' : (forall x, x <> d ++ "/"%char :: f_name (h i) -> x <> f_hname (h i) -> table s' x = listed l x) -> other_names h l i d names s' = true.
  Proof.
    intros H. apply forallb_forall. intros x _. destruct (str_eqb x (d ++ _)) eqn:A; [reflexivity|]. destruct (str_eqb x (f_hname (h i))) eqn:B; [reflexivity|]. cbn [orb table]. rewrite H; [apply opt_refl| |]; intros ->; rewrite str_eqb_refl in *; discriminate.
  Qed.
  Lemma all_test s' j : (forall x y, resolves h x y -> resolves (heap s') x (if y =? i then j else y)) -> all_get n h i addrs s' j = true.
  Proof.
    intros H. apply forallb_forall. intros x _. destruct (follow n h x) as [y|] eqn:F; [|reflexivity]. destruct (follow n (heap s') x) as [z|] eqn:G; [|reflexivity]. apply follow_resolves, H in F. apply follow_resolves in G. apply Nat.eqb_eq. eapply resolves_unique; eauto.
  Qed.
  Theorem C71_check_one : t_time NEW nt vp lib gp ns n h l i search d names addrs = true.
  Proof.
    unfold t_time. destruct (soundb n h l && opt_eqb (listed l (f_hname (h i))) (Some i)) eqn:U; [|reflexivity]. apply andb_true_iff in U. destruct U as [S K]. apply soundb_sound in S. destruct S as [S _]. apply opt_eq in K.
    set (s := mkstate h (listed l)) in *. assert (KN : known s i) by exact K. destruct (f_time NEW nt vp lib gp ns 5 n s i search) as [s' m| | |] eqn:H; try reflexivity.
    destruct (negb (nt (f_name (h i)) =? NONEXISTENT) || negb search || w_ignore (f_flags (h i)) || negb (match foundb vp lib (f_name (h i)) with Some _ => true | None => false end)) eqn:C.
    - assert (C' : nt (f_name (heap s i)) <> NONEXISTENT \/ search = false \/ w_ignore (f_flags (heap s i)) = true \/ (forall r, ~ found vp lib (f_name (heap s i)) r)).
      { cbn [s heap]. rewrite !orb_true_iff, !negb_true_iff, Nat.eqb_neq in C. destruct C as [[[C|C]|C]|C]; auto. right. right. right. apply foundb_none. destruct (foundb vp lib (f_name (h i))); [discriminate|reflexivity]. }
      destruct (C71_exists _ _ _ _ _ _ _ _ _ _ _ _ _ H C') as (M & T & R). cbn [s heap] in M, R. rewrite M at 1. rewrite Nat.eqb_refl, (recorded_test _ _ _ _ _ _ _ R), andb_true_r. cbn [andb]. apply forallb_forall. intros x _. rewrite T. apply opt_refl.
    - rewrite !orb_false_iff, !negb_false_iff, Nat.eqb_eq in C. destruct C as (((NE & SE) & W) & FO). destruct (foundb vp lib (f_name (h i))) as [[x t]|] eqn:F; [|reflexivity]. clear FO. apply foundb_iff in F. subst search.
      destruct (str_eqb x (d ++ "/"%char :: f_name (h i))) eqn:X; [|reflexivity]. apply str_eqb_eq in X. subst x. destruct (str_eqb (f_hname (h i)) (d ++ "/"%char :: f_name (h i))) eqn:HN; [reflexivity|]. cbn [negb orb].
      assert (HN' : f_hname (heap s i) <> d ++ "/"%char :: f_name (heap s i)) by (cbn [s heap]; intros Q; rewrite <- Q, str_eqb_refl in HN; discriminate).
      destruct (existsb (str_eqb d) gp) eqn:G.
      + destruct ((f_mtime (h i) =? UNKNOWN) && opt_eqb (listed l (d ++ "/"%char :: f_name (h i))) None && (negb (t =? UNKNOWN) || negb (nt (d ++ "/"%char :: f_name (h i)) =? NONEXISTENT))) eqn:Y.
        2: { cbn zeta. fold s. set (j := now_at s i (d ++ "/"%char :: f_name (h i))).
          destruct ((f_mtime (h i) =? UNKNOWN) && opt_eqb (listed l (d ++ "/"%char :: f_name (h i))) (Some j) && str_eqb (f_name (h j)) (d ++ "/"%char :: f_name (h i)) && negb (nt (d ++ "/"%char :: f_name (h i)) =? NONEXISTENT)) eqn:Z; [|reflexivity].
          rewrite !andb_true_iff, negb_true_iff, Nat.eqb_neq, Nat.eqb_eq in Z. destruct Z as (((UM & TJ) & NJ) & UT). apply opt_eq in TJ. apply str_eqb_eq in NJ.
          assert (IG : In d gp) by (apply existsb_exists in G; destruct G as (q & I & Q); apply str_eqb_eq in Q; congruence).
          destruct (C71_gpath_merge _ _ _ _ _ _ _ _ _ _ _ _ _ _ _ S KN NE W UM F HN' IG TJ NJ UT H) as (M & NM & NMJ & T1 & T2 & T3 & _ & RS). cbn [s heap table] in *.
          rewrite NM, NMJ, T1, T2, (others_test _ T3), (all_test _ _ RS), !str_eqb_refl, !opt_refl, !andb_true_r. rewrite M at 1. apply Nat.eqb_refl. }
        rewrite !andb_true_iff, orb_true_iff, !negb_true_iff, !Nat.eqb_neq, Nat.eqb_eq in Y. destruct Y as ((UM & TN) & UT). apply opt_eq in TN.
        assert (IG : In d gp) by (apply existsb_exists in G; destruct G as (q & I & Q); apply str_eqb_eq in Q; congruence).
        destruct (C71_gpath _ _ _ _ _ _ _ _ _ _ _ _ _ _ S KN NE W UM F HN' IG TN UT H) as (M & NM & T1 & T2 & T3 & _ & RS). cbn [s heap table] in *.
        rewrite M, NM, T1, T2, Nat.eqb_refl, str_eqb_refl, !opt_refl, (others_test _ T3). cbn [andb]. apply all_test. intros a b Q. replace (if b =? i then i else b) with b by (destruct (Nat.eqb_spec b i); congruence). auto.
      + assert (NG : ~ In d gp) by (intros I; apply not_true_iff_false in G; apply G, existsb_exists; exists d; split; [exact I|apply str_eqb_refl]).
        destruct (C71_found _ _ _ _ _ _ _ _ _ _ _ _ _ _ S KN NE W F HN' NG H) as (M & T1 & T2 & T3 & _ & RS & NM & MT). cbn [s heap table] in *. fold s in T1, RS, MT. cbn zeta. fold s.
        rewrite NM, T1, T2, MT, (others_test _ T3), (all_test _ _ RS), str_eqb_refl, !opt_refl, Nat.eqb_refl, andb_true_r. rewrite M, Nat.eqb_refl. reflexivity.
  Qed.
End Check.
Theorem C71_check : forall NEW nt vp lib gp ns n h l i search d names addrs, t_time NEW nt vp lib gp ns n h l i search d names addrs = true.
Proof. exact C71_check_one. Qed.
Lemma future_iff NEW x : futureb NEW x = true <-> counts NEW x /\ limit x < time_of x.
Proof. destruct x as [[[a r] m] u]. unfold futureb, countsb, counts. rewrite !andb_true_iff, !negb_true_iff, !Nat.eqb_neq, Nat.ltb_lt. tauto. Qed.
Theorem C71_check_skew : forall NEW l, t_skew NEW l = true.
Proof.
  intros NEW l. unfold t_skew. cbn zeta. destruct (C71_skew NEW 0 l) as [A B]. set (r := look_all NEW (mkskew false 0) l) in *. rewrite !andb_true_iff. split; [split|].
  - apply Nat.leb_le. replace (length (filter (fun b : bool => b) r)) with (count_occ Bool.bool_dec r true); [exact A|]. clear. induction r as [| [] r IH]; cbn [count_occ filter List.length]; [reflexivity| |]; destruct (Bool.bool_dec _ true); try congruence; cbn [List.length]; congruence.
  - apply forallb_forall. intros p _. destruct (nth_error l p) as [x|] eqn:X; [|reflexivity]. destruct (nth_error r p) as [[]|] eqn:R; try reflexivity. apply future_iff. eauto.
  - apply forallb_forall. intros p _. destruct (nth_error l p) as [x|] eqn:X; [|reflexivity]. destruct (futureb NEW x && forallb (fun y => limit y <=? limit x) (firstn (Datatypes.S p) l)) eqn:F; [|reflexivity].
    apply andb_true_iff in F. destruct F as [F MO]. apply future_iff in F. destruct F as [F1 F2]. rewrite forallb_forall in MO.
    assert (NF : forall A (k : list A) q N y, nth_error (firstn N k) q = Some y <-> q < N /\ nth_error k q = Some y).
    { clear. intros A k. induction k as [|z k IH]; intros q N y; [rewrite firstn_nil; split; [destruct q; discriminate|intros [_ Q]; exact Q]|]. destruct N as [|N]; [split; [destruct q; discriminate|intros [Q _]; lia]|]. destruct q as [|q]; cbn [firstn nth_error]; [split; [intros Q; split; [lia|exact Q]|tauto]|]. rewrite IH. split; intros [Q1 Q2]; (split; [lia|exact Q2]). }
    destruct (C71_skew_complete NEW l p x X F1 F2) as (q & Q1 & Q2).
    + intros q y Q Y. apply Nat.leb_le. apply MO. apply (nth_error_In _ q). apply NF. split; [lia|exact Y].
    + apply existsb_exists. exists true. split; [|reflexivity]. apply (nth_error_In _ q). apply NF. split; [lia|exact Q2].
Qed.
Lemma times_follow l : times_hold l = true.
Proof. apply forallb_forall. intros s _. apply C71_check. Qed.
Lemma skews_follow l : skews_hold l = true.
Proof. apply forallb_forall. intros s _. apply C71_check_skew. Qed.
Print Assumptions C71_check.
Print Assumptions C71_check_skew.
