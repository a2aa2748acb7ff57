(** C66: the cache of directories answers from what each directory was when it was first asked about. *)
From Coq Require Import Lia String List.
From Verif Require Import Base M_Dir S_Dir P_Dir P_Dir2.
Open Scope string_scope.
Open Scope list_scope.
Open Scope nat_scope.

Lemma same_place vs d e : same vs d e <-> place_of vs d = place_of vs e.
Proof.
  unfold same, place_of. split.
  - intros [-> | (i & -> & ->)]; reflexivity.
  - destruct (node vs d) as [i|] eqn:D, (node vs e) as [j|] eqn:E; intros H; inversion H; subst; eauto.
Qed.
Lemma marked_place es w k d f : (forall e, k <> Mark e f) -> (was_marked (es ++ [(w, k)]) d f <-> mks es (place_of (visits (es ++ [(w, k)])) d) f).
Proof.
  intros K. unfold was_marked, mks. split.
  - intros (w0 & e & I & H). apply same_place in H. apply in_app_or in I. destruct I as [I | [I | []]]; [|injection I as _ I; destruct (K e I)].
    exists w0, e. split; auto. rewrite H, visits_snoc, place_old; auto. apply (visits_in _ _ _ I).
  - intros (w0 & e & I & H). exists w0, e. split; [apply in_or_app; auto|]. apply same_place. rewrite <- H, visits_snoc, (place_old (visits es) w (dir_of k) e); auto. apply (visits_in _ _ _ I).
Qed.

(** ** Whether a file exists is answered by the listing of its directory, as that was when the directory was first
    asked about under any of its names; neither what else was asked, nor what was marked, nor when the reading of the
    directory stopped, nor what the system says by now changes the answer. *)
Theorem C66_exists : forall es w d f, careful es -> f <> [] ->
  (snd (dir_file_exists_p w (calls init es) d f) = true <-> present (visits (es ++ [(w, Exists d f)])) d f).
Proof.
  intros es w d f C NE. destruct (dir_file_exists_p w (calls init es) d f) as [st b] eqn:H. rewrite visits_snoc. apply (exists_inv _ _ _ _ _ _ _ _ (calls_inv es C) H). exact NE.
Qed.

(** ** Whether the directory itself exists (the empty name in it): it could be read, or something was marked in it. *)
Theorem C66_directory : forall es w d, careful es ->
  (snd (dir_file_exists_p w (calls init es) d []) = true <->
   files (visits (es ++ [(w, Exists d [])])) d <> None \/ exists f, was_marked (es ++ [(w, Exists d [])]) d f).
Proof.
  intros es w d C. destruct (dir_file_exists_p w (calls init es) d []) as [st b] eqn:H. destruct (exists_inv _ _ _ _ _ _ _ _ (calls_inv es C) H) as (_ & _ & G). cbn [snd]. rewrite (G eq_refl).
  rewrite visits_snoc. split; (intros [X | (f & M)]; [left; exact X | right; exists f]).
  - apply marked_place; [discriminate|]. rewrite visits_snoc. exact M.
  - apply marked_place in M; [|discriminate]. rewrite visits_snoc in M. exact M.
Qed.

(** ** A file is known to be impossible exactly if it was marked in that directory, under any of its names. *)
Theorem C66_marked : forall es w d f, careful es ->
  (snd (marked w (calls init es) d f) = true <-> was_marked (es ++ [(w, Marked d f)]) d f).
Proof.
  intros es w d f C. rewrite marked_place by discriminate. rewrite visits_snoc. cbn [dir_of]. unfold marked. destruct (find_directory w (calls init es) d) as [st1 p] eqn:FD.
  apply (find_inv _ _ _ _ _ _ _ (calls_inv es C)) in FD. destruct FD as (I & D & PS & PN). cbn [snd]. destruct p as [q|].
  - destruct (PS q eq_refl) as [X E]. destruct (s_contents st1 q) as [c|] eqn:CC; [|congruence]. rewrite <- E. destruct (i_fine _ _ _ I q c CC) as [F1 F2 F3].
    destruct (c_table c) eqn:T.
    + rewrite <- F2. destruct (find_item (c_files c) f) as [[]|]; split; congruence.
    + split; [discriminate|]. intros M. exfalso. destruct (listed (visits es ++ [(w, d)]) q); [destruct F3; congruence|]. destruct F3 as (_ & _ & G). assert (false = true) by (apply G; eauto). discriminate.
  - split; [discriminate|]. destruct (PN eq_refl) as [ND OW]. unfold place_of. rewrite ND. intros M. destruct (i_marks _ _ _ I _ _ M). exact OW.
Qed.

(** ** What a wildcard is matched against: the files of that listing, each once, whatever had been read of it; a
    directory that could not be read has none. *)
Theorem C66_glob : forall es w d, careful es ->
  match files (visits (es ++ [(w, Glob d)])) d with
  | Some l => exists names, snd (list_dir w (calls init es) d) = Some names /\ NoDup names /\ forall f, In f names <-> In f l
  | None => snd (list_dir w (calls init es) d) = None \/
            (snd (list_dir w (calls init es) d) = Some [] /\ exists f, was_marked (es ++ [(w, Glob d)]) d f)
  end.
Proof.
  intros es w d C. rewrite visits_snoc. cbn [dir_of]. destruct (list_dir w (calls init es) d) as [st r] eqn:H. destruct (glob_inv _ _ _ _ _ _ _ (calls_inv es C) H) as (_ & G). cbn [snd].
  destruct (files (visits es ++ [(w, d)]) d); auto. destruct G as [G | (G & f & M)]; auto. right. split; auto. exists f. apply marked_place; [discriminate|]. rewrite visits_snoc. exact M.
Qed.

(** ** The number of open directories is exact, and ten are never open when a call returns. *)
Theorem C66_open : forall es, exists L, NoDup L /\ length L = s_open (calls init es) /\ length L < 10 /\
  (forall i, In i L <-> exists c s, s_contents (calls init es) (Node i) = Some c /\ c_stream c = Some s) /\
  (forall d c, s_contents (calls init es) (Own d) = Some c -> c_stream c = None).
Proof. intros es. destruct (calls_counted es) as (L & [A B C D M]). exists L. auto. Qed.

(** ** While the system does not change, the answer is what the system would say. *)
Theorem C66_static : forall es w d f, careful es -> (forall x, In x es -> fst x = w) -> coherent w -> f <> [] ->
  (snd (dir_file_exists_p w (calls init es) d f) = true <-> exists i l, w_stat w d = Some i /\ w_open w d = Some l /\ In f l).
Proof.
  intros es w d f C W H NE. rewrite C66_exists by auto. set (vs := visits (es ++ [(w, Exists d f)])).
  assert (V : forall v, In v vs -> fst v = w).
  { intros v X. unfold vs, visits in X. apply in_map_iff in X. destruct X as (x & <- & X). cbn. apply in_app_or in X. destruct X as [X | [<- | []]]; auto. }
  assert (N : forall e, In e (map snd vs) -> node vs e = w_stat w e).
  { intros e X. apply looked_in in X. destruct X as (w0 & X). unfold node. rewrite X. unfold looked in X. destruct (find (fun v => str_eqb (snd v) e) vs) as [v|] eqn:F; [|discriminate]. injection X as <-.
    apply find_some in F. rewrite (V v); tauto. }
  assert (D : In d (map snd vs)). { unfold vs. rewrite visits_snoc, map_app. apply in_or_app. right. left. reflexivity. }
  unfold present, files. rewrite (N d D). destruct (w_stat w d) as [i|] eqn:ST.
  - unfold listing. destruct (find (is_node vs i) vs) as [[w0 e]|] eqn:F.
    + apply find_some in F. destruct F as [F1 F2]. pose proof (V _ F1) as E. cbn in E. subst w0. assert (E : In e (map snd vs)) by (apply in_map_iff; exists (w, e); auto).
      unfold is_node in F2. cbn [snd] in F2. rewrite (N e E) in F2. destruct (w_stat w e) as [j|] eqn:SE; [|discriminate]. apply Nat.eqb_eq in F2. subst j. rewrite (H e d i SE ST).
      split; [intros (l & A & B); exists i, l; auto | intros (j & l & A & B & G); exists l; auto].
    + exfalso. apply in_map_iff in D. destruct D as ([w0 e] & X & Y). cbn in X. subst e. pose proof (find_none _ _ F _ Y) as Z. unfold is_node in Z. cbn [snd] in Z.
      rewrite (N d), ST, Nat.eqb_refl in Z; [discriminate|]. apply in_map_iff. exists (w0, d). auto.
  - split; [intros (l & A & _); discriminate | intros (j & l & A & _); discriminate].
Qed.

(** ** A name stands for the directory up to its last slash and the file after it. *)
Lemma last_slash_none f : no_slash f -> last_slash f = None.
Proof.
  induction f as [| c f IH]; intros N; [reflexivity|]. cbn [last_slash]. rewrite IH by (intros I; apply N; right; exact I). destruct (c =?c c_slash) eqn:E; auto. apply Ascii.eqb_eq in E. exfalso. apply N. left. exact E.
Qed.
Lemma last_slash_at d f : no_slash f -> last_slash (d ++ c_slash :: f) = Some (d, f).
Proof. intros N. induction d as [| c d IH]; cbn [app last_slash]; [rewrite last_slash_none by auto; reflexivity | rewrite IH; reflexivity]. Qed.
Lemma split_named name d f : named name d f -> split_name name = (d, f).
Proof.
  intros H. unfold split_name. destruct H as [f N | f N | d f D N].
  - rewrite last_slash_none by auto. reflexivity.
  - pose proof (last_slash_at [] f N) as X. cbn [app] in X. rewrite X. reflexivity.
  - rewrite last_slash_at by auto. destruct d; congruence.
Qed.
Theorem C66_split : forall w st name d f, named name d f ->
  file_exists_p w st name = dir_file_exists_p w st d f /\ file_impossible w st name = mark w st d f /\ file_impossible_p w st name = marked w st d f.
Proof.
  intros w st name d f H. apply split_named in H.
  unfold file_exists_p, file_impossible, file_impossible_p. rewrite H. auto.
Qed.
Theorem C66_split_total : forall name, exists d f, named name d f /\ forall d' f', named name d' f' -> d' = d /\ f' = f.
Proof.
  intros name. exists (fst (split_name name)), (snd (split_name name)). split.
  - unfold split_name. destruct (last_slash name) as [[d f]|] eqn:E.
    + assert (X : name = d ++ c_slash :: f /\ no_slash f).
      { revert d f E. induction name as [| c s IH]; cbn [last_slash]; intros d f E; [discriminate|]. destruct (last_slash s) as [[d0 f0]|] eqn:L.
        - injection E as <- <-. destruct (IH _ _ eq_refl) as [-> N]. auto.
        - destruct (c =?c c_slash) eqn:X; [|discriminate]. injection E as <- <-. apply Ascii.eqb_eq in X. subst. split; auto. intros I.
          clear IH. revert L I. induction s as [| a s IH]; cbn [last_slash In]; [tauto|]. destruct (last_slash s); [destruct p; discriminate|]. destruct (a =?c c_slash) eqn:A; [discriminate|]. apply Ascii.eqb_neq in A.
          intros _ [I|I]; [congruence | auto]. }
      destruct X as [-> N]. destruct d; [apply Named_root | apply Named_in]; auto. discriminate.
    + cbn. apply Named_here. revert E. induction name as [| a s IH]; unfold no_slash; cbn [last_slash In]; [intros _ [] |]. destruct (last_slash s) as [[? ?]|]; [discriminate|]. destruct (a =?c c_slash) eqn:A; [discriminate|]. apply Ascii.eqb_neq in A.
      intros _ [I|I]; [congruence | apply IH; auto].
  - intros d' f' H. apply split_named in H. rewrite H. auto.
Qed.

(** * Cases *)
Definition here := s2l ".". Definition sub := s2l "sub". Definition link := s2l "link". Definition gone := s2l "gone".
Definition a := s2l "a.c". Definition b := s2l "b.c". Definition c := s2l "c.c". Definition x := s2l "x.c".
(** [sub] and [link] are one directory; [gone] does not exist. *)
Definition w1 : world := mkworld (fun d => if str_eqb d here then Some 1 else if str_eqb d sub || str_eqb d link then Some 2 else None)
                                 (fun d => if str_eqb d here then Some [a; b; c] else if str_eqb d sub || str_eqb d link then Some [b] else None).
(** Later [a.c] is gone and [x.c] is there. *)
Definition w2 : world := mkworld (w_stat w1) (fun d => if str_eqb d here then Some [x; b; c] else w_open w1 d).

Definition run := [(w1, Exists here a); (w1, Exists gone x); (w1, Mark gone x); (w2, Exists here x); (w2, Mark here x); (w2, Exists link b); (w2, Exists link x); (w2, Mark link x)].
Lemma run_careful : careful run.
Proof.
  intros w d f H. unfold run in H. cbn [In] in H.
  repeat (destruct H as [H|H]; [first [discriminate H | injection H as <- <- <-;
    match goal with |- if ?t then _ else _ => change t with false end; cbv iota; intros (l & F & I); vm_compute in F;
    first [discriminate F | injection F as <-; vm_compute in I; intuition discriminate]]|]).
  destruct H.
Qed.

(** [a.c] is still there for make though it has been removed since, and [x.c] is not. *)
Example C66_exists_case : present (visits (run ++ [(w2, Exists here a)])) here a /\ ~ present (visits (run ++ [(w2, Exists here x)])) here x /\
  present (visits (run ++ [(w2, Exists sub b)])) sub b.
Proof.
  split; [|split].
  - eexists. split; [vm_compute; reflexivity | left; reflexivity].
  - intros (l & F & I). vm_compute in F. injection F as <-. vm_compute in I. intuition discriminate.
  - eexists. split; [vm_compute; reflexivity | left; reflexivity].
Qed.
Example C66_exists_run : map (fun q => snd (dir_file_exists_p w2 (calls init run) (fst q) (snd q))) [(here, a); (here, x); (sub, b); (link, x); (gone, x)] = [true; false; true; false; false].
Proof. reflexivity. Qed.
(** [x.c] was marked under [link]; it is known under [sub]. *)
Example C66_marked_case : was_marked (run ++ [(w2, Marked sub x)]) sub x /\ snd (marked w2 (calls init run) sub x) = true /\ snd (marked w2 (calls init run) sub b) = false.
Proof.
  split; [|split; reflexivity]. exists w2, link. split; [cbn [In run app]; tauto|]. right. exists 2. split; reflexivity.
Qed.
Example C66_glob_case : snd (list_dir w2 (calls init run) here) = Some [a; b; c] /\ snd (list_dir w2 (calls init run) link) = Some [b].
Proof. split; reflexivity. Qed.
Example C66_open_case : s_open (calls init [(w1, Exists here a); (w1, Exists sub b)]) = 2 /\ s_open (calls init run) = 0.
Proof. split; reflexivity. Qed.
(** Nine directories stay open; the tenth is read at once. *)
Definition many : world := mkworld (fun d => Some (List.length d)) (fun d => Some [a]).
Example C66_open_many : s_open (calls init (map (fun n => (many, Marked (repeat c_dot n) a)) (seq 1 9))) = 9 /\ s_open (calls init (map (fun n => (many, Marked (repeat c_dot n) a)) (seq 1 12))) = 9.
Proof. split; reflexivity. Qed.
Example C66_static_case : coherent w1 /\ careful [(w1, Exists here a); (w1, Exists sub x)].
Proof.
  split.
  - intros d e i. unfold w1. cbn [w_stat w_open]. destruct (str_eqb d here), (str_eqb e here); auto; destruct (str_eqb d sub || str_eqb d link), (str_eqb e sub || str_eqb e link); congruence.
  - intros w d f [H | [H | []]]; discriminate H.
Qed.
Example C66_split_case : named (s2l "sub/b.c") sub b /\ named (s2l "/b.c") [c_slash] b /\ named b here b.
Proof.
  assert (N : no_slash b) by (intros I; vm_compute in I; intuition discriminate).
  split; [apply (Named_in sub b); auto; discriminate|]. split; [apply Named_root; auto | apply Named_here; auto].
Qed.

(** ** Whether a directory exists depends on what was marked in it: after make has marked a file of a directory that
    is not there, the directory exists, and a wildcard reads it as empty. *)
Theorem C66_directory_refuted : exists es w d, careful es /\ (forall x, In x es -> fst x = w) /\ w_stat w d = None /\ w_open w d = None /\
  snd (dir_file_exists_p w (calls init [(w, Exists d x)]) d []) = false /\ snd (dir_file_exists_p w (calls init es) d []) = true /\
  snd (list_dir w (calls init []) d) = None /\ snd (list_dir w (calls init es) d) = Some [].
Proof.
  exists [(w1, Exists gone x); (w1, Mark gone x)], w1, gone. split; [|split; [|repeat split]].
  - intros w d f [H | [H | []]]; [discriminate H|]. injection H as <- <- <-. intros (l & F & _). vm_compute in F. discriminate.
  - cbn [In]. intros y [<- | [<- | []]]; reflexivity.
Qed.

(** ** If files that are there were marked, the answer would depend on how far the directory had been read: the two
    runs differ by a question about another file. *)
Theorem C66_order_refuted : exists w d f g, f <> g /\
  snd (dir_file_exists_p w (calls init [(w, Exists d f); (w, Mark d g)]) d g) = false /\
  snd (dir_file_exists_p w (calls init [(w, Exists d f); (w, Mark d g); (w, Exists d x)]) d g) = true.
Proof. exists w1, here, a, c. split; [discriminate|]. split; reflexivity. Qed.

Print Assumptions C66_exists.
Print Assumptions C66_directory.
Print Assumptions C66_marked.
Print Assumptions C66_glob.
Print Assumptions C66_open.
Print Assumptions C66_static.
Print Assumptions C66_split.
Print Assumptions C66_split_total.
Print Assumptions C66_directory_refuted.
Print Assumptions C66_order_refuted.
