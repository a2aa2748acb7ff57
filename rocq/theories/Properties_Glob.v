(** C58: what the names of a list stand for. *)
From Verif Require Import Base M_Text M_Quote M_Implicit S_Ar S_Implicit M_Seq S_Quote P_Quote S_Seq P_Seq Properties_Seq S_Glob P_Glob.
From Coq Require Import Lia.
Open Scope string_scope.
Open Scope list_scope.
Open Scope nat_scope.

(** A list of names becomes, name by name, what the names stand for: home directories, files that match, members that match.  A name lib((entry)) stops make.  (The case that is left out,
    members with a prefix or for $(wildcard), is C58_wildcard_archive_refuted.) *)
Theorem C58_meaning :
  forall stop (oneword nostrip noar exist nocache : bool) prefix tilde glob members text ws rest,
  good_stop stop -> reads stop (sep oneword) text ws rest ->
  no_quoted_stop stop text \/ Forall (fun w => ~ In c_lparen w) ws ->
  (nocache = false /\ prefix = None) \/ noar = true ->
  let names := map (fun w => if nostrip then w else clean w) ws in
  let result := parse_file_seq stop oneword nostrip noar false exist nocache prefix tilde glob members text in
  exists ns, (if noar then ns = names else grouped names ns) /\
    (forall ls, Forall2 (stands noar exist tilde glob members) ns ls -> result = Names (map (pre prefix) (concat ls)) rest) /\
    (Exists (refused noar tilde) ns -> result = Fatal).
Proof.
  intros stop oneword nostrip noar exist nocache prefix tilde glob members text ws rest (SB & SS) R Q OK names result. unfold result.
  destruct (loop_spec stop oneword nostrip noar false exist nocache prefix tilde glob members SB SS (S (length text)) (S (length text)) text ws rest ltac:(lia) ltac:(lia) R) as [L _].
  destruct (L Q) as (ns & G & E). exists ns. split; [exact G|]. unfold parse_file_seq. rewrite E. unfold fin. clear E G L. split.
  - intros ls F. match goal with |- context [all ?a ?b ?c ?d ?e ?f ?g ?h ns] => assert (A : all a b c d e f g h ns = Some (map (pre prefix) (concat ls))) end.
    { induction F as [|n l ns ls H F IH]; [reflexivity|]. cbn [all concat]. rewrite (emit_stands noar exist nocache prefix tilde glob members OK n l H), IH, map_app. reflexivity. }
    rewrite A. reflexivity.
  - intros X. match goal with |- context [all ?a ?b ?c ?d ?e ?f ?g ?h ns] => assert (A : all a b c d e f g h ns = None) end.
    { induction X as [n ns H|n ns X IH]; cbn [all].
      - rewrite (emit_refused noar exist nocache prefix tilde glob members n H). reflexivity.
      - rewrite IH. destruct (emit noar false exist nocache prefix tilde glob members n); reflexivity. }
    rewrite A. reflexivity.
Qed.
Print Assumptions C58_meaning.

(** A name stands for exactly one list or is refused. *)
Theorem C58_stands : forall noar exist tilde glob members n,
  (refused noar tilde n /\ forall l, ~ stands noar exist tilde glob members n l) \/
  (~ refused noar tilde n /\ exists l, stands noar exist tilde glob members n l /\ forall l', stands noar exist tilde glob members n l' -> l' = l).
Proof.
  intros noar exist tilde glob members n. assert (OK : (false = false /\ @None str = None) \/ noar = true) by (left; split; reflexivity).
  assert (ID : forall l, map (pre None) l = l) by (induction l; [reflexivity|]; cbn [map]; rewrite IHl; reflexivity).
  destruct (stands_or noar exist tilde glob members n) as [(l & S1)|R].
  - right. pose proof (emit_stands _ _ _ _ _ _ _ OK _ _ S1) as E. split; [intros R; rewrite (emit_refused noar exist false None tilde glob members n R) in E; discriminate|].
    exists l. split; [exact S1|]. intros l' S2. rewrite (emit_stands _ _ _ _ _ _ _ OK _ _ S2), !ID in E. injection E as ->. reflexivity.
  - left. split; [exact R|]. intros l S1. pose proof (emit_stands _ _ _ _ _ _ _ OK _ _ S1) as E. rewrite (emit_refused noar exist false None tilde glob members n R) in E. discriminate.
Qed.
Print Assumptions C58_stands.

(** The prerequisites of a rule: those before the first bar are normal, those behind it order-only; a further bar is a name. *)
Theorem C58_prereqs : forall tilde glob members text l,
  no_quoted_stop (fun c => c =?c c_pipe) text \/ ~ In c_lparen text ->
  (listed (fun c => c =?c c_pipe) tilde glob members text l [] -> split_prereqs tilde glob members text = Some (l, [])) /\
  (forall r l', listed (fun c => c =?c c_pipe) tilde glob members text l (c_pipe :: r) -> listed (fun _ => false) tilde glob members r l' [] -> split_prereqs tilde glob members text = Some (l, l')).
Proof.
  intros tilde glob members text l Q. assert (GB : good_stop (fun c => c =?c c_pipe)) by (split; [reflexivity|]; intros c H; apply Ascii.eqb_neq; intros ->; discriminate). assert (GN : good_stop no_stop) by (split; reflexivity).
  assert (ID : forall l : list str, map (pre None) l = l) by (intros; apply map_id).
  assert (P : forall stop t l0 rest, good_stop stop -> no_quoted_stop stop t \/ ~ In c_lparen t -> listed stop tilde glob members t l0 rest -> parse_file_seq stop false false false false false false None tilde glob members t = Names l0 rest).
  { intros stop t l0 rest GS Q' (ws & ns & ls & R & G & F & ->).
    assert (NP : no_quoted_stop stop t \/ Forall (fun w => ~ In c_lparen w) ws).
    { destruct Q' as [Q'|Q']; [left; exact Q'|right]. clear - R Q'. induction R as [t T|t c r T ST|t c r w rest ws e T ST U R IH]; [constructor..|].
      assert (TI : forall x, In x (c :: r) -> In x t) by (clear - T; intros x X; rewrite <- T in X; clear - X; induction t as [|d t IH]; [exact X|]; cbn [trim] in X; destruct (isspace d); [right; exact (IH X)|exact X]).
      assert (UI : forall s n w rest, unq (fun x => stop x || isblank x) n s = (w, rest) -> (forall x, In x w -> x = c_bslash \/ In x s) /\ forall z, rest = Some z -> forall x, In x z -> In x s).
      { clear. induction s as [|d s IH]; intros n w rest U; cbn [unq] in U.
        - injection U as <- <-. split; [intros x X; left; exact (repeat_spec _ _ _ X)|discriminate].
        - destruct (d =?c c_bslash); [destruct (IH _ _ _ U) as [A B]; split; [intros x X; destruct (A x X); [left; assumption|right; right; assumption]|intros z Z x X; right; exact (B z Z x X)]|].
          destruct (stop d || isblank d).
          + destruct (Nat.even n); [injection U as <- <-; split; [intros x X; left; exact (repeat_spec _ _ _ X)|intros z Z x X; injection Z as <-; exact X]|].
            destruct (unq _ 0 s) as [b r0] eqn:V. injection U as <- <-. destruct (IH _ _ _ V) as [A B]. split.
            * intros x X. apply in_app_or in X. destruct X as [X|[X|X]]; [left; exact (repeat_spec _ _ _ X)|right; left; exact X|destruct (A x X); [left; assumption|right; right; assumption]].
            * intros z Z x X. right. exact (B z Z x X).
          + destruct (unq _ 0 s) as [b r0] eqn:V. injection U as <- <-. destruct (IH _ _ _ V) as [A B]. split.
            * intros x X. apply in_app_or in X. destruct X as [X|[X|X]]; [left; exact (repeat_spec _ _ _ X)|right; left; exact X|destruct (A x X); [left; assumption|right; right; assumption]].
            * intros z Z x X. right. exact (B z Z x X). }
      destruct (UI _ _ _ _ U) as [A B]. constructor.
      - intros X. destruct (A _ X) as [K|K]; [discriminate|]. exact (Q' (TI _ K)).
      - apply IH. destruct rest as [z|]; [intros X; exact (Q' (TI _ (B z eq_refl _ X)))|intros []]. }
    destruct (C58_meaning stop false false false false false None tilde glob members t ws rest GS R NP (or_introl (conj eq_refl eq_refl))) as (ns' & G' & E & _).
    rewrite (grouped_unique _ _ G' _ G) in E. rewrite (E ls F), ID. reflexivity. }
  assert (QN : forall t, no_quoted_stop no_stop t) by (intros t a x b _; reflexivity). unfold split_prereqs. split.
  - intros L. rewrite (P _ _ _ _ GB Q L). reflexivity.
  - intros r l' L L'. rewrite (P _ _ _ _ GB Q L), (P no_stop r l' [] GN (or_introl (QN r)) L'). reflexivity.
Qed.
Print Assumptions C58_prereqs.

(** A pattern, a home directory, a pattern for members, and a pattern without matches, in one list. *)
Definition c58_glob (n : str) : gres := if str_eqb n (s2l "*.c") then GFound [s2l "a.c"; s2l "b.c"] else GNoMatch.
Definition c58_tilde (n : str) : option str := if str_eqb n (s2l "~u/x") then Some (s2l "/home/u/x") else None.
Definition c58_members (a p : str) : list str := if str_eqb a (s2l "l.a") then [s2l "m1.o"; s2l "m2.o"] else [].
Example C58_meaning_example :
  parse_file_seq (fun c => c =?c c_pipe) false false false false false false None c58_tilde c58_glob c58_members (s2l "./*.c ~u/x l.a(m*.o z.o) q? ~v|b")
  = Names [s2l "a.c"; s2l "b.c"; s2l "/home/u/x"; s2l "l.a(m1.o)"; s2l "l.a(m2.o)"; s2l "l.a(z.o)"; s2l "q?"; s2l "~v"] (s2l "|b") /\
  stands false false c58_tilde c58_glob c58_members (s2l "*.c") [s2l "a.c"; s2l "b.c"] /\ stands false false c58_tilde c58_glob c58_members (s2l "~u/x") [s2l "/home/u/x"] /\
  refused false c58_tilde (s2l "l((e))").
Proof.
  split; [vm_compute; reflexivity|]. split; [|split].
  - apply (st_file _ _ _ _ _ _ (s2l "*.c")); [apply h_plain; discriminate| |apply fl_found; [right; exists "*"%char; cbn; auto|reflexivity]].
    right. intros (a & m & E & _). assert (I : In c_lparen (s2l "*.c")) by (rewrite E; apply in_or_app; right; left; reflexivity). cbn in I. intuition discriminate.
  - apply (st_file _ _ _ _ _ _ (s2l "/home/u/x")); [apply (h_known c58_tilde (s2l "u/x")); reflexivity| |apply fl_plain; [reflexivity|]].
    + right. intros (a & m & E & _). assert (I : In c_lparen (s2l "/home/u/x")) by (rewrite E; apply in_or_app; right; left; reflexivity). cbn in I. intuition discriminate.
    + intros (c & I & H). cbn in I. intuition congruence.
  - split; [reflexivity|]. exists (s2l "l((e))"). split; [apply h_plain; discriminate|]. exists (s2l "l"), (s2l "e"). split; [discriminate|]. split; [cbn; intuition discriminate|reflexivity].
Qed.
