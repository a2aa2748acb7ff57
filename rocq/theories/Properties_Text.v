(** Text functions: C04-C10, C41, C42. *)
From Coq Require Import Sorted Permutation.
From Verif Require Import Base M_Hash M_Quote S_Quote P_Quote M_Text S_Text P_Text P_Text2 P_Text3 P_Text4.
Open Scope string_scope.
Open Scope list_scope.
Open Scope nat_scope.

(** C04 *)
Theorem C04_words_count : forall a, exists n, func_words a = Some n /\
  numeral n (Z.of_nat (length (words a))).
Proof. exact func_words_spec. Qed.
Print Assumptions C04_words_count.
Example C04_words_count_ex : func_words " foo  bar " = Some (s2l "2").
Proof. reflexivity. Qed.

Theorem C04_word_nth : forall n v a, numeral n v -> (1 <= v <= INT_MAX)%Z ->
  func_word n a = Ok (nth (Z.to_nat v - 1) (words a) []).
Proof. exact func_word_ok. Qed.
Print Assumptions C04_word_nth.
Example C04_word_nth_ex :
  numeral " 2 " 2 /\ func_word " 2 " "foo  bar baz" = Ok (s2l "bar") /\ func_word "4" "foo  bar baz" = Ok [].
Proof.
  split; [|split; reflexivity]. exists (s2l " "), (s2l "2"), (s2l " ").
  repeat split; try (intros c [<-|[]]; reflexivity); try discriminate.
  constructor; [vm_compute; lia|constructor].
Qed.

Theorem C04_word_bad_index : forall n a,
  (~ (exists v, numeral n v) \/ numeral n 0) -> func_word n a = Fatal.
Proof. exact func_word_fatal. Qed.
Print Assumptions C04_word_bad_index.
Example C04_word_bad_index_ex : func_word "x" "foo bar" = Fatal /\ func_word "0" "foo bar" = Fatal.
Proof. split; reflexivity. Qed.

Theorem C04_first_last : forall a,
  func_firstword a = hd [] (words a) /\ func_lastword a = Some (last (words a) []).
Proof. intros a. exact (conj (func_firstword_spec a) (func_lastword_spec a)). Qed.
Print Assumptions C04_first_last.
Example C04_first_last_ex :
  func_firstword " foo bar baz " = "foo" /\ func_lastword " foo bar baz " = Some (s2l "baz").
Proof. split; reflexivity. Qed.

Theorem C04_wordlist : forall n s m e a, numeral n s -> numeral m e ->
  (1 <= s <= e)%Z -> (e <= INT_MAX)%Z ->
  exists u, func_wordlist n m a = Ok u /\
    if Z.to_nat s <=? length (words a)
    then word_range a (Z.to_nat s) (Z.to_nat e) u else u = [].
Proof. exact func_wordlist_ok. Qed.
Print Assumptions C04_wordlist.
Theorem C04_wordlist_backwards : forall n s m e a, numeral n s -> numeral m e ->
  (1 <= s <= INT_MAX)%Z -> (0 <= e < s)%Z -> func_wordlist n m a = Ok [].
Proof. exact func_wordlist_empty. Qed.
Print Assumptions C04_wordlist_backwards.
Example C04_wordlist_ex :
  func_wordlist "2" "3" "a  b   c d" = Ok (s2l "b   c") /\ func_wordlist "5" "9" "a b" = Ok [] /\
  func_wordlist "3" "2" "a b c" = Ok [].
Proof. repeat split; reflexivity. Qed.

(** Composition: the word numbered by $(words X) is the last one. *)
Theorem C04_word_of_words_is_last : forall a n, func_words a = Some n ->
  (1 <= Z.of_nat (length (words a)) <= INT_MAX)%Z ->
  exists w, func_lastword a = Some w /\ func_word n a = Ok w.
Proof.
  intros a n H B. destruct (func_words_spec a) as [n' [H1 H2]].
  assert (n' = n) by congruence. subst n'.
  exists (last (words a) []). split; [apply func_lastword_spec|].
  rewrite (func_word_ok _ _ a H2 B). f_equal. rewrite Nat2Z.id.
  destruct (words a) as [|w ws _] using rev_ind; [simpl in B; lia|].
  rewrite last_last, app_length. simpl. rewrite Nat.add_sub, nth_middle. reflexivity.
Qed.
Print Assumptions C04_word_of_words_is_last.
Example C04_word_of_words_is_last_ex : func_words " a b c" = Some (s2l "3") /\ func_word "3" " a b c" = Ok (s2l "c").
Proof. split; reflexivity. Qed.

(** C05 *)
Theorem C05_strip : forall a,
  exists s, func_strip a = Some s /\ words s = words a /\ s = unwords (words a) /\ func_strip s = Some s.
Proof.
  intros a. exists (unwords (words a)). split; [apply func_strip_spec|]. split; [apply words_strip|].
  split; [reflexivity|]. rewrite func_strip_spec, words_strip. reflexivity.
Qed.
Print Assumptions C05_strip.
Example C05_strip_ex : func_strip "  a  b c " = Some (s2l "a b c").
Proof. reflexivity. Qed.

(** C06 *)
Theorem C06_subst : forall f t x, f <> [] ->
  exists out, func_subst f t x = Some out /\ subst_rel f t x out /\
    (forall y, subst_rel f t x y -> y = out).
Proof.
  intros f t x Hf. destruct (func_subst_rel f t x Hf) as [out [H1 H2]].
  exists out. split; [exact H1|]. split; [exact H2|]. intros y Hy. exact (subst_rel_fun _ _ _ _ Hy _ H2).
Qed.
Print Assumptions C06_subst.
Theorem C06_subst_same_or_absent : forall f t x, f <> [] -> f = t \/ ~ occurs f x -> func_subst f t x = Some x.
Proof.
  intros f t x Hf H. destruct (func_subst_rel f t x Hf) as [out [H1 H2]]. rewrite H1. f_equal.
  destruct H as [<-|H]; [exact (subst_rel_same _ _ _ H2)|exact (subst_rel_absent _ _ _ _ H H2)].
Qed.
Print Assumptions C06_subst_same_or_absent.
Example C06_subst_ex : func_subst "aa" "b" "aaaxaa" = Some (s2l "baxb") /\
  func_subst "ee" "EE" "feet on the street" = Some (s2l "fEEt on the strEEt").
Proof. split; reflexivity. Qed.

(** C07.  Pattern with a percent sign: the words are mapped one by one; a matching word
    disappears if the replacement is the empty text. *)
Theorem C07_patsubst_percent : forall pat rep text pre post,
  pattern_of pat = (pre, Some post) ->
  exists ws outs, func_patsubst pat rep text = Some (unwords outs) /\
    Forall2 (word_subst (pre, Some post) (pattern_of rep)) ws outs /\
    (pattern_of rep <> ([], None) -> ws = words text) /\
    (pattern_of rep = ([], None) ->
       exists keep, (forall w, keep w = true <-> forall stem, ~ stem_of (pre, Some post) w stem) /\
         ws = filter keep (words text)).
Proof. exact func_patsubst_pct_rel. Qed.
Print Assumptions C07_patsubst_percent.
Example C07_patsubst_percent_ex :
  pattern_of "%.c" = ([], Some (s2l ".c")) /\
  func_patsubst "%.c" "obj/%.o" " a.c  b.h c.c" = Some (s2l "obj/a.o b.h obj/c.o") /\
  func_patsubst "a%" "" "ab c ad" = Some (s2l "c").
Proof. repeat split; reflexivity. Qed.

(** Each word has exactly one result. *)
Theorem C07_word_result_unique : forall p r w x y, word_subst p r w x -> word_subst p r w y -> x = y.
Proof. exact word_subst_fun. Qed.
Print Assumptions C07_word_result_unique.
Example C07_word_result_unique_ex : word_subst ([], Some (s2l ".c")) (s2l "x", None) "a.c" "x".
Proof.
  refine (ws_hit ([], Some (s2l ".c")) (s2l "x", None) (s2l "a.c") (s2l "a") _).
  exact (stem_pct [] (s2l ".c") (s2l "a")).
Qed.

(** Literal pattern: words equal to it are replaced in place, the white space is kept. *)
Theorem C07_patsubst_literal : forall pat rep text lit,
  pattern_of pat = (lit, None) -> lit <> [] -> no_space lit ->
  exists out, func_patsubst pat rep text = Some out /\
    keep_subst (word_subst (lit, None) (raw_of (pattern_of rep), None)) text out.
Proof. exact func_patsubst_lit. Qed.
Print Assumptions C07_patsubst_literal.
Example C07_patsubst_literal_ex :
  pattern_of "foo" = (s2l "foo", None) /\
  func_patsubst "foo" "bar" "foo  foofoo foo" = Some (s2l "bar  foofoo bar").
Proof. split; reflexivity. Qed.

(** Substitution references. *)
Theorem C07_suffix_reference : forall value a b, ~ In c_percent a ->
  subst_ref value a b = func_patsubst (c_percent :: a) (c_percent :: b) value.
Proof. exact subst_ref_plain. Qed.
Print Assumptions C07_suffix_reference.
Theorem C07_pattern_reference : forall value a b pre post, pattern_of a = (pre, Some post) ->
  subst_ref value a b = func_patsubst a b value.
Proof. exact subst_ref_percent. Qed.
Print Assumptions C07_pattern_reference.
Example C07_suffix_reference_ex : subst_ref "a.c b.c" ".c" ".o" = Some (s2l "a.o b.o") /\
  subst_ref "a.c b.c" "%.c" "x%.o" = Some (s2l "xa.o xb.o").
Proof. split; reflexivity. Qed.

(** The first form fails when A holds a (quoted) percent sign. *)
Theorem C07_suffix_reference_quoted_refuted : exists value a b,
  (forall pre post, pattern_of a <> (pre, Some post)) /\
  subst_ref value a b <> func_patsubst (c_percent :: a) (c_percent :: b) value.
Proof.
  exists (s2l "x%a"), (s2l "\%a"), (s2l "b"). split; [vm_compute; congruence|]. vm_compute. discriminate.
Qed.
Print Assumptions C07_suffix_reference_quoted_refuted.

(** An empty pattern is appended to texts that are empty or end in white space only. *)
Theorem C07_patsubst_empty_pattern : forall pat rep text, pattern_of pat = ([], None) ->
  func_patsubst pat rep text =
  Some (text ++ (if match rev text with c :: _ => isspace c | [] => true end
                 then raw_of (pattern_of rep) else [])).
Proof. exact func_patsubst_empty. Qed.
Print Assumptions C07_patsubst_empty_pattern.
Example C07_patsubst_empty_pattern_ex :
  func_patsubst "" "x" "a " = Some (s2l "a x") /\ func_patsubst "" "x" "a b" = Some (s2l "a b").
Proof. split; reflexivity. Qed.

(** A word whose result is empty leaves its separating space behind: the output is not the
    list of nonempty results. *)
Theorem C07_patsubst_empty_stem_space_refuted :
  exists pat rep text out, func_patsubst pat rep text = Some out /\ func_strip out <> Some out.
Proof. exists (s2l "a%"), (s2l "%"), (s2l "a b"), (s2l " b"). split; [reflexivity|vm_compute; discriminate]. Qed.
Print Assumptions C07_patsubst_empty_stem_space_refuted.

(** C08.  For any pair of hash functions. *)
Theorem C08_filter : forall h1 h2 pats text, (N.of_nat (length text) < 2 ^ 63)%N ->
  exists f, (forall w, f w = true <-> matches_any pats w) /\
    func_filter h1 h2 true pats text = Some (unwords (filter f (words text))) /\
    func_filter h1 h2 false pats text = Some (unwords (filter (fun w => negb (f w)) (words text))).
Proof.
  intros h1 h2 pats text L.
  exists (fun w => existsb (fun p => pat_test (pattern_of p) w) (words pats)).
  split; [intros w; apply matches_any_iff|]. split; [exact (func_filter_spec h1 h2 true pats text L)|exact (func_filter_spec h1 h2 false pats text L)].
Qed.
Print Assumptions C08_filter.
Example C08_filter_ex :
  func_filter (@length ascii) (fun _ => 1) true "a b %.c" "a x.c b a y b.c" = Some (s2l "a x.c b a b.c") /\
  func_filter (@length ascii) (fun _ => 1) false "a b %.c" "a x.c b a y b.c" = Some (s2l "y") /\
  func_filter (@length ascii) (fun _ => 1) true "%" "  p  q" = Some (s2l "p q").
Proof. repeat split; vm_compute; reflexivity. Qed.

(** C09.  [mem] is the argument, its NUL and what follows: the argument must end in two. *)
Theorem C09_sort : forall q x g, sorter q -> nul_free x ->
  exists l, func_sort q (x ++ c_nul :: c_nul :: g) = Ok (unwords l) /\
    (forall w, In w l <-> In w (words x)) /\ StronglySorted sort_lt l /\
    (forall l', StronglySorted sort_lt l' -> (forall w, In w l' <-> In w (words x)) -> l' = l) /\
    ((forall w, In w (words x) -> ascii_start w) -> StronglySorted byte_lt l).
Proof.
  intros q x g Hq Hx. destruct (func_sort_spec q x g Hq Hx) as [l [H1 [H2 H3]]].
  exists l. split; [exact H1|]. split; [exact H2|]. split; [exact H3|]. split.
  - intros l' S' I'. apply sorted_unique; auto. intros w. rewrite I', H2. reflexivity.
  - intros Ha. assert (Ha' : forall w, In w l -> ascii_start w) by (intros w Hw; apply Ha, H2, Hw).
    clear -H3 Ha'. induction H3 as [|x l S IH F]; [constructor|]. constructor.
    + apply IH. intros w Hw. apply Ha'. right. exact Hw.
    + rewrite Forall_forall in *. intros y Hy. apply sort_byte_lt; [apply Ha'; left; reflexivity|apply Ha'; right; exact Hy|].
      apply F, Hy.
Qed.
Print Assumptions C09_sort.
Example C09_sort_ex : sorter isort /\
  func_sort isort (s2l " foo bar  lose foo" ++ [c_nul; c_nul; "z"%char]) = Ok (s2l "bar foo lose").
Proof. split; [exact isort_sorter|vm_compute; reflexivity]. Qed.

(** Words starting with a byte above 127 sort before all others. *)
Theorem C09_byte_order_refuted : exists x l, nul_free x /\
  func_sort isort (x ++ [c_nul; c_nul]) = Ok (unwords l) /\
  (forall w, In w l <-> In w (words x)) /\ ~ StronglySorted byte_lt l.
Proof.
  exists [ascii_of_nat 195; c_sp; "z"%char], [[ascii_of_nat 195]; ["z"%char]].
  split; [intros [H|[H|[H|[]]]]; discriminate|]. split; [vm_compute; reflexivity|]. split.
  - intros w. simpl. tauto.
  - intros H. inversion H as [|? ? ? F]; subst. inversion F as [|? ? B]; subst. inversion B; subst.
    match goal with L : nat_of_ascii _ < nat_of_ascii _ |- _ => vm_compute in L; lia end.
Qed.
Print Assumptions C09_byte_order_refuted.
(** An argument ending in a single NUL (src/expand.c writes only one for a text ending in a
    lone dollar sign) makes sort read the memory behind it. *)
Theorem C09_sort_reads_past_end_refuted : exists x g, nul_free x /\
  func_sort isort (x ++ [c_nul] ++ g) <> func_sort isort (x ++ [c_nul]) /\
  func_sort isort (x ++ [c_nul]) = UB /\
  func_sort isort (x ++ [c_nul] ++ g) <> func_sort isort (x ++ [c_nul; c_nul]).
Proof.
  exists (s2l "x"), [ "g"%char; c_nul; c_nul]. split; [intros [H|[]]; discriminate|].
  repeat split; vm_compute; discriminate || reflexivity.
Qed.
Print Assumptions C09_sort_reads_past_end_refuted.

(** C10 *)
Theorem C10_dir_notdir : forall a, exists l,
  map (fun p => fst p ++ snd p) l = words a /\ Forall dir_split l /\
  func_dir a = Some (unwords (map (fun p => match fst p with [] => s2l "./" | d => d end) l)) /\
  func_notdir a = Some (unwords (map snd l)).
Proof.
  intros a. exists (map dirs (words a)). split; [|split; [|split]].
  - rewrite map_map. erewrite map_ext; [apply map_id|]. intros w. apply dirs_spec.
  - apply Forall_forall. intros p Hp. apply in_map_iff in Hp. destruct Hp as [w [<- _]]. apply dirs_spec.
  - apply func_dir_spec.
  - apply func_notdir_spec.
Qed.
Print Assumptions C10_dir_notdir.
Theorem C10_basename_suffix : forall a, exists l,
  map (fun p => fst p ++ snd p) l = words a /\ Forall suffix_split l /\
  func_basename a = Some (unwords (map fst l)) /\
  func_suffix a = Some (unwords (filter nonempty (map snd l))).
Proof.
  intros a. exists (map suffs (words a)). split; [|split; [|split]].
  - rewrite map_map. erewrite map_ext; [apply map_id|]. intros w. apply suffs_spec.
  - apply Forall_forall. intros p Hp. apply in_map_iff in Hp. destruct Hp as [w [<- _]]. apply suffs_spec.
  - apply func_basename_spec.
  - apply func_suffix_spec.
Qed.
Print Assumptions C10_basename_suffix.
Theorem C10_splits_unique :
  (forall p q, dir_split p -> dir_split q -> fst p ++ snd p = fst q ++ snd q -> p = q) /\
  (forall p q, suffix_split p -> suffix_split q -> fst p ++ snd p = fst q ++ snd q -> p = q).
Proof. exact (conj dir_split_unique suffix_split_unique). Qed.
Print Assumptions C10_splits_unique.
Example C10_ex :
  func_dir "src/foo.c hacks" = Some (s2l "src/ ./") /\ func_notdir "src/foo.c hacks" = Some (s2l "foo.c hacks") /\
  func_basename "src/foo.c src-1.0/bar hacks" = Some (s2l "src/foo src-1.0/bar hacks") /\
  func_suffix "src/foo.c src-1.0/bar.c hacks" = Some (s2l ".c .c").
Proof. repeat split; reflexivity. Qed.

(** C41 *)
Theorem C41_add_and_join : forall p a b,
  func_addprefix p a = Some (unwords (map (fun w => p ++ w) (words a))) /\
  func_addsuffix p a = Some (unwords (map (fun w => w ++ p) (words a))) /\
  func_join a b = Some (unwords (zip_app (words a) (words b))).
Proof. intros p a b. exact (conj (func_addprefix_spec p a) (conj (func_addsuffix_spec p a) (func_join_spec a b))). Qed.
Print Assumptions C41_add_and_join.
(** Joining the directory and the file parts gives the files back, with ./ made explicit. *)
Theorem C41_join_dir_notdir : forall a d n,
  (forall w, In w (words a) -> exists e f, w = e ++ c_slash :: f /\ f <> [] /\ ~ In c_slash f) ->
  func_dir a = Some d -> func_notdir a = Some n -> func_join d n = Some (unwords (words a)).
Proof.
  intros a d n Ha Hd Hn.
  destruct (C10_dir_notdir a) as [l [L1 [L2 [L3 L4]]]]. rewrite L3 in Hd. rewrite L4 in Hn.
  injection Hd as <-. injection Hn as <-. rewrite func_join_spec. do 2 f_equal.
  assert (P : forall p, In p l -> fst p <> [] /\ no_space (fst p) /\ snd p <> [] /\ no_space (snd p)).
  { intros p Hp. assert (Hw : In (fst p ++ snd p) (words a)).
    { rewrite <- L1. apply (in_map (fun p => fst p ++ snd p)). exact Hp. }
    destruct (Ha _ Hw) as [e [f [E1 [E2 E3]]]]. rewrite Forall_forall in L2. specialize (L2 _ Hp).
    assert (E : p = (e ++ [c_slash], f)).
    { apply dir_split_unique; [exact L2| |cbn [fst snd]; rewrite <- app_assoc; exact E1].
      split; [exact E3|]. right. exists e. reflexivity. }
    destruct (words_props _ _ Hw) as [_ S]. rewrite E in S |- *. cbn [fst snd] in *.
    split; [destruct e; discriminate|]. split; [intros c Hc; apply S, in_or_app; left; exact Hc|].
    split; [exact E2|]. intros c Hc; apply S, in_or_app; right; exact Hc. }
  rewrite !words_unwords.
  - rewrite <- L1. clear -P. induction l as [|[e f] l IH]; [reflexivity|]. cbn [map zip_app fst snd]. f_equal.
    + destruct e; [exfalso; apply (proj1 (P ([], f) (or_introl eq_refl))); reflexivity|reflexivity].
    + apply IH. intros p Hp. apply P. right. exact Hp.
  - intros w Hw. apply in_map_iff in Hw. destruct Hw as [p [<- Hp]]. split; apply P; exact Hp.
  - intros w Hw. apply in_map_iff in Hw. destruct Hw as [p [<- Hp]].
    destruct (P p Hp) as [P1 [P2 _]]. destruct (fst p); [contradiction|]. split; [discriminate|exact P2].
Qed.
Print Assumptions C41_join_dir_notdir.
Example C41_ex : func_join "a b" ".c .o x" = Some (s2l "a.c b.o x") /\
  func_addprefix "src/" "foo bar" = Some (s2l "src/foo src/bar") /\
  func_addsuffix ".c" "foo  bar" = Some (s2l "foo.c bar.c") /\
  func_join "src/ x/y/" "foo.c z" = Some (s2l "src/foo.c x/y/z").
Proof. repeat split; reflexivity. Qed.

(** C42 *)
Theorem C42_findstring : forall f a,
  (occurs f a -> func_findstring f a = f) /\ (~ occurs f a -> func_findstring f a = []).
Proof. exact func_findstring_spec. Qed.
Print Assumptions C42_findstring.
Example C42_ex : func_findstring "a" "a b c" = "a" /\ func_findstring "a" "b c" = [].
Proof. split; reflexivity. Qed.
