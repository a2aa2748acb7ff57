From Verif Require Import Base M_Hash S_Hash Properties_Hash M_StrCache S_StrCache P_StrCache.
Open Scope string_scope.
Open Scope list_scope.
Open Scope nat_scope.

(** C03.  For any sequence of strings interned from start-up, and whatever the hash functions:
    interning never fails (no write past a buffer, no endless probing); at the end every
    pointer ever returned still reads as the string it was returned for; pointers of two
    ordinary strings (shorter than USHRT_MAX) are equal exactly when the strings are; different
    pointers never share bytes; and strcache_iscached recognises every one of them. *)
Theorem C03_strcache_interns :
  forall (umax bufsize : nat) (h1 h2 : str -> nat) (strs : list str),
  0 < umax -> bufsize <= umax ->
  (forall s, In s strs -> c_string s) ->
  exists st hs, sc_run umax bufsize h1 h2 strcache_init strs = Some (st, hs) /\
    length hs = length strs /\
    (forall i s h, nth_error strs i = Some s -> nth_error hs i = Some h ->
       text_at st h = Some s /\ strcache_iscached st h = true) /\
    (forall i j s s' h h',
       nth_error strs i = Some s -> nth_error hs i = Some h ->
       nth_error strs j = Some s' -> nth_error hs j = Some h' ->
       (h = h' -> s = s') /\
       (length s < umax -> s = s' -> h = h') /\
       (h <> h' -> disjoint_strings h s h' s')).
Proof.
  intros umax bufsize h1 h2 strs U BS N.
  destruct (run_inv umax bufsize h1 h2 BS strs strcache_init [] (init_inv umax h1 h2) U N)
    as [st [hs [R [L [hist [I [J _]]]]]]].
  exists st, hs. split; [exact R|]. split; [exact L|]. 
  pose proof (iv_wf _ _ _ _ _ I) as W. pose proof (iv_nul _ _ _ _ _ I) as NU.
  pose proof (iv_holds _ _ _ _ _ I) as HO. split.
  - intros i s h Hs Hh. pose proof (J _ (nth_combine_in _ _ _ _ _ Hh Hs)) as Hi. split.
    + eapply (holds_text umax); eauto.
    + eapply (holds_cached umax bufsize BS); eauto.
  - intros i j s s' h h' Hs Hh Hs' Hh'.
    pose proof (J _ (nth_combine_in _ _ _ _ _ Hh Hs)) as Hi.
    pose proof (J _ (nth_combine_in _ _ _ _ _ Hh' Hs')) as Hi'. split; [|split].
    + intros <-. eapply (holds_fun umax h1 h2 st h s s' W); eauto.
    + intros Sm <-. destruct (iv_tbl _ _ _ _ _ I) as [m [_ [_ [T2 T3]]]].
      apply (T3 s); apply T2; assumption.
    + intros Hne. destruct (iv_apart _ _ _ _ _ I _ _ _ _ Hi Hi' Hne) as [A|[A|A]]; [left; exact A| |]; right; intros; lia.
Qed.
Print Assumptions C03_strcache_interns.

(** The sizes of the code: USHRT_MAX, and BUFSIZE = 8192 - 16 - 14; nat numerals kept small. *)
Definition USHRT_MAX := 256 * 256 - 1.
Definition BUFSIZE := 32 * 256 - 30.

Lemma sizes_ok : 0 < USHRT_MAX /\ BUFSIZE <= USHRT_MAX.
Proof.
  split; [|apply Nat.leb_le; vm_compute; reflexivity].
  apply Nat.ltb_lt. vm_compute. reflexivity.
Qed.

Example C03_example_run :
  let h (s : str) := length s in
  match sc_run USHRT_MAX BUFSIZE h h strcache_init [s2l "foo"; s2l "ba"; s2l "foo"; s2l "bar"; []; s2l "ba"] with
  | Some (_, hs) => Some hs
  | None => None
  end = Some [(0, 0); (0, 4); (0, 0); (0, 7); (0, 11); (0, 4)].
Proof. vm_compute. reflexivity. Qed.

Example C03_example_small_buffers :
  (* 8-byte buffers: a 9-byte string gets its own, a string as long as USHRT_MAX is "huge"
     and interned twice *)
  let h (s : str) := length s in
  match sc_run 20 8 h h strcache_init
    [s2l "foo"; s2l "123456789"; s2l "01234567890123456789"; s2l "123456789";
     s2l "ab"; s2l "abc"; s2l "01234567890123456789"] with
  | Some (st, hs) => Some (hs, text_at st (0, 0), text_at st (3, 0))
  | None => None
  end = Some ([(0, 0); (1, 0); (2, 0); (1, 0); (0, 4); (3, 0); (4, 0)], Some (s2l "foo"), Some (s2l "abc")).
Proof. vm_compute. reflexivity. Qed.
