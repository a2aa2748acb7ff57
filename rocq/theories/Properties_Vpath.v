(** C40, C49: search paths. *)
From Verif Require Import Base M_Quote S_Quote M_Text S_Text P_Text M_Vpath S_Vpath P_Vpath P_Vpath2.
Open Scope string_scope.
Open Scope list_scope.
Open Scope nat_scope.

Definition no_end_slash (ds : list str) : Prop := forall d, In d ds -> forall v, d <> v ++ [c_slash].
Definition no_double_slash (file : str) : Prop := forall a b, file <> a ++ c_slash :: c_slash :: b.
(** A pattern without an unquoted percent has no quoted one either. *)
Definition no_quoted_percent (L : list ((str * option str) * list str)) : Prop := forall x es, In ((x, None), es) L -> ~ In c_percent x.

(** After the makefiles with the directives [texts] have been read, and VPATH has the value
    [value], a search finds a file exactly if some place accepts it, and then in the earliest
    place: the directives in force in the order of the makefile, of which those matter whose
    pattern the name matches, and in each the directories in the order given; VPATH last. *)
Theorem C40_first_place :
  forall T lookup_file listed stat texts ds L value gvalue G file,
  Forall2 reads texts ds -> in_force ds L -> directories value G ->
  no_quoted_percent L -> (forall p es, In (p, es) L -> no_end_slash es) -> no_end_slash G ->
  no_double_slash file -> (forall y, file <> c_slash :: y) ->
  match vpath_search T lookup_file listed stat (build_vpath_lists (fold_left (fun l t => vpath_line t l) texts []) value gvalue) file with
  | Undefined _ => False
  | Nothing _ => forall vi pi d tm, place L G file vi pi d -> ~ accepted T lookup_file listed stat file d tm
  | Found _ name tm vi pi =>
      exists d, place L G file vi pi d /\ name = d ++ c_slash :: file /\ accepted T lookup_file listed stat file d tm /\
      forall vi' pi' d', place L G file vi' pi' d' -> earlier vi' pi' vi pi -> forall tm', ~ accepted T lookup_file listed stat file d' tm'
  end.
Proof.
  intros T lookup_file listed stat texts ds L value gvalue G file R I D N1 N2 N3 F1 F2.
  pose proof (whole_outcome T lookup_file listed stat texts ds L value gvalue G R I D N1 (fun p es d H => N2 p es H d) N3 file F1 F2) as O.
  destruct (vpath_search _ _ _ _ _ file) as [|name tm vi pi|]; cbn [outcome] in O; [exact O| |exact O].
  destruct O as (_ & d & O). rewrite Nat.sub_0_r in O. exists d. exact O.
Qed.
Print Assumptions C40_first_place.

(** Every text is a directive, of every list of directives some are in force, and every value is
    a list of directories. *)
Theorem C40_always_meaningful : forall texts value,
  exists ds L G, Forall2 reads texts ds /\ in_force ds L /\ directories value G.
Proof.
  intros texts value. assert (F : exists ds, Forall2 reads texts ds).
  { induction texts as [|t texts [ds F]]; [eexists; constructor|]. destruct (reads_total t) as [d H]. exists (d :: ds). constructor; assumption. }
  destruct F as [ds F]. destruct (in_force_total ds) as [L I]. destruct (directories_total value) as [G D]. exists ds, L, G. auto.
Qed.
Print Assumptions C40_always_meaningful.

(** An absolute name is not searched for. *)
Theorem C40_absolute_name : forall T lookup_file listed stat ps y, vpath_search T lookup_file listed stat ps (c_slash :: y) = Nothing T.
Proof. reflexivity. Qed.
Print Assumptions C40_absolute_name.

(** GPATH: the test is whether the first [len] characters are one of its directories. *)
Theorem C40_gpath : forall l value gvalue G file len, directories gvalue G -> len <= length file ->
  (gpath_search (build_vpath_lists l value gvalue) file len = true <-> In (firstn len file) G).
Proof.
  intros l value gvalue G file len D H. pose proof (one_path_dirs gvalue G D) as E. unfold gpath_search, build_vpath_lists. cbn [gpaths].
  destruct (one_path gvalue) as [g|]; cbn [gdirs] in E; subst G; [|split; [discriminate|intros []]].
  rewrite existsb_exists. split.
  - intros (x & H1 & H2). apply andb_true_iff in H2. destruct H2 as [H2 H3]. apply Nat.eqb_eq in H3. unfold strneq in H2. apply str_eqb_eq in H2.
    rewrite <- H3, firstn_all in H2. rewrite <- H3, <- H2. exact H1.
  - intros H1. exists (firstn len file). split; [exact H1|]. rewrite firstn_length, Nat.min_l by exact H. rewrite Nat.eqb_refl, andb_true_r.
    unfold strneq. apply str_eqb_eq. rewrite firstn_firstn, Nat.min_id. reflexivity.
Qed.
Print Assumptions C40_gpath.

(** A library -lNAME is looked for under all names the patterns give.  What is found is the
    earliest: the current directory, then the places searched, then the standard directories;
    at the same place the first pattern. *)
Theorem C49_earliest_library :
  forall T lookup_file listed stat texts ds L value gvalue G name_mtime uint_max std lib pats,
  Forall2 reads texts ds -> in_force ds L -> directories value G ->
  no_quoted_percent L -> (forall p es, In (p, es) L -> no_end_slash es) -> no_end_slash G ->
  length L < uint_max - length std ->
  (forall p x, In p pats -> lib_name lib p x -> no_double_slash x) ->
  let found c a e i n tm := exists p x, nth_error pats i = Some p /\ lib_name lib p x /\
    hit T lookup_file listed stat name_mtime std L G x c a e n tm in
  exists r, library_search T lookup_file listed stat name_mtime uint_max std
              (build_vpath_lists (fold_left (fun l t => vpath_line t l) texts []) value gvalue) lib pats = Some r /\
    match r with
    | None => forall c a e i n tm, ~ found c a e i n tm
    | Some (n, tm) => exists c a e i, found c a e i n tm /\
        forall c' a' e' i' n' tm', found c' a' e' i' n' tm' -> le4 c a e i c' a' e' i'
    end.
Proof.
  intros T lookup_file listed stat texts ds L value gvalue G name_mtime uint_max std lib pats R I D N1 N2 N3 B X found.
  destruct (patterns_inv T lookup_file listed stat texts ds L value gvalue G R I D N1 (fun p es d H => N2 p es H d) N3 name_mtime uint_max std B lib pats 0
              (mkbest T None 0 0) (fun _ _ _ _ _ _ => False)) as (b & B1 & B2); [exact X|intros c a e j n tm []|intros c a e j n tm K; exact K|].
  exists (b_file T b). unfold library_search. rewrite B1. split; [reflexivity|].
  assert (E : forall c a e i n tm, found c a e i n tm <-> (False \/ hits_of T lookup_file listed stat L G name_mtime std lib pats 0 c a e i n tm)).
  { intros c a e i n tm. unfold found, hits_of. rewrite Nat.sub_0_r. split; [intros K; right; split; [lia|exact K]|intros [[]|[_ K]]; exact K]. }
  destruct (b_file T b) as [[n tm]|].
  - destruct B2 as (c & a & e & i & C1 & C2). exists c, a, e, i. split; [apply E; exact C1|]. intros c' a' e' i' n' tm' K. apply E in K. exact (C2 _ _ _ _ _ _ K).
  - intros c a e i n tm K. apply E in K. exact (B2 _ _ _ _ _ _ K).
Qed.
Print Assumptions C49_earliest_library.

(** ** Cases *)

(** A file system: the files that exist; the directories are read completely. *)
Definition fs := list string.
Definition exists_in (f : fs) (n : str) : option nat := if existsb (fun x => str_eqb (s2l x) n) f then Some 7 else None.
Definition listed_in (f : fs) (d n : str) : bool := existsb (fun x => str_eqb (s2l x) (d ++ c_slash :: n)) f.
Definition no_files (n : str) : option (bool * option nat) := None.
Definition run (f : fs) (lines : list string) (value file : string) : vres nat :=
  vpath_search nat no_files (listed_in f) (exists_in f) (build_vpath_lists (fold_left (fun l t => vpath_line t l) (map s2l lines) []) (s2l value) []) (s2l file).

Example C40_example :
  let f := ["b/x.c"; "c/x.c"; "g/x.c"; "c/x.h"; "g/d/y.h"] in
  run f ["%.c a:b"; "%.h  c"; "%.c c"] "g" "x.c" = Found nat (s2l "b/x.c") (Some 7) 0 1 /\
  run f ["%.c a:b"; "%.h  c"; "%.c c"; "%.c"] "g" "x.c" = Found nat (s2l "g/x.c") (Some 7) 1 0 /\
  run f ["%.c a:b"; "%.h  c"; "%.c c"; ""] "" "x.c" = Nothing nat /\
  run f ["%.c a:b"; "%.h  c/"; "%.c c"] "g" "d/y.h" = Found nat (s2l "g/d/y.h") (Some 7) 3 0.
Proof. repeat split; vm_compute; reflexivity. Qed.

Example C40_hypotheses : exists ds L G,
  Forall2 reads [s2l "%.c a:b"; s2l "%.h  c/"; s2l "%.h"] ds /\ in_force ds L /\ directories (s2l "g") G /\
  L = [((s2l "", Some (s2l ".c")), [s2l "a"; s2l "b"])] /\ G = [s2l "g"] /\
  no_quoted_percent L /\ (forall p es, In (p, es) L -> no_end_slash es) /\ no_end_slash G /\ no_double_slash (s2l "d/x.c").
Proof.
  destruct (C40_always_meaningful [s2l "%.c a:b"; s2l "%.h  c/"; s2l "%.h"] (s2l "g")) as (ds & L & G & R & I & D). exists ds, L, G.
  pose proof (lists_in_force _ _ R L I) as EL. vm_compute in EL. pose proof (directories_dirs _ _ D) as EG. vm_compute in EG. subst L G.
  assert (NE : forall l, forallb (fun d : str => negb (last_char d =?c c_slash)) l = true -> no_end_slash l).
  { intros l H d Hd v E. rewrite forallb_forall in H. specialize (H d Hd). rewrite E, last_char_snoc in H. discriminate. }
  split; [exact R|]. split; [exact I|]. split; [exact D|]. split; [reflexivity|]. split; [reflexivity|]. split.
  { intros x es [K|[]]. discriminate. }
  split; [intros p es [K|[]]; injection K as <- <-; apply NE; reflexivity|]. split; [apply NE; reflexivity|].
  intros a b E. destruct a as [|? [|? a]]; [discriminate|discriminate|].
  do 4 (destruct a as [|? a]; [discriminate|]). apply (f_equal (@length ascii)) in E. cbn in E. rewrite ?app_length in E. cbn in E. lia.
Qed.

Definition run_lib (f : fs) (lines : list string) (value lib : string) (pats : list string) :=
  library_search nat no_files (listed_in f) (exists_in f) (exists_in f) 100 [s2l "/lib"; s2l "/usr/lib"]
    (build_vpath_lists (fold_left (fun l t => vpath_line t l) (map s2l lines) []) (s2l value) []) (s2l lib) (map s2l pats).
Example C49_example :
  let f := ["b/libm.a"; "a/libm.so"; "/lib/libm.so"; "/lib/libz.so"; "/usr/lib/libz.a"; "/lib/libz.a"] in
  run_lib f ["%.a b"] "a" "m" ["lib%.so"; "lib%.a"] = Some (Some (s2l "b/libm.a", Some 7)) /\
  run_lib f ["%.a x"] "a" "m" ["lib%.so"; "lib%.a"] = Some (Some (s2l "a/libm.so", Some 7)) /\
  run_lib f [] "" "z" ["lib%.so"; "lib%.a"] = Some (Some (s2l "/lib/libz.so", Some 7)) /\
  run_lib f [] "" "q" ["lib%.so"; "lib%.a"] = Some None.
Proof. repeat split; vm_compute; reflexivity. Qed.

(** ** Where it fails *)

(** The root directory in VPATH finds nothing: the slash put back overwrites the first
    character of the name. *)
Theorem C40_root_directory_refuted : exists f file,
  run f [] "/" file = Nothing nat /\
  listed_in f [] (s2l file) = true /\ exists_in f (c_slash :: s2l file) <> None.
Proof.
  exists ["//etc"; "/etc"], "etc". split; [vm_compute; reflexivity|]. split; [vm_compute; reflexivity|]. vm_compute. discriminate.
Qed.
Print Assumptions C40_root_directory_refuted.

(** Two slashes in the name: the directory is returned in place of the file. *)
Theorem C40_double_slash_refuted : exists f,
  exists_in f (s2l "src/a//b") <> None /\ run f [] "src" "a//b" = Found nat (s2l "src/a//") (Some 7) 0 0.
Proof. exists ["src/a//b"; "src/a//"]. split; [vm_compute; discriminate|vm_compute; reflexivity]. Qed.
Print Assumptions C40_double_slash_refuted.

(** A quoted percent matches everything: the pattern is searched for a percent again. *)
Theorem C40_quoted_percent_refuted : exists f,
  pattern_of (s2l "\%.c") = (s2l "%.c", None) /\ run f ["\%.c src"] "" "x.c" = Found nat (s2l "src/x.c") (Some 7) 0 0.
Proof. exists ["src/x.c"]. split; vm_compute; reflexivity. Qed.
Print Assumptions C40_quoted_percent_refuted.

(** A name that ends in two slashes: what follows the end of the name is read. *)
Theorem C40_unterminated_refuted : forall f, listed_in f (s2l "src/a/") [] = true -> run f [] "src" "a//" = Undefined nat.
Proof. intros f H. unfold run, vpath_search. cbn -[listed_in exists_in]. change (listed_in f _ _) with (listed_in f (s2l "src/a/") []). rewrite H. reflexivity. Qed.
Print Assumptions C40_unterminated_refuted.
Example C40_unterminated_example : listed_in ["src/a//"] (s2l "src/a/") [] = true.
Proof. vm_compute. reflexivity. Qed.
