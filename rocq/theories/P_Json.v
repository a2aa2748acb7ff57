(** The profile is a JSON document. *)
From Coq Require Import ZArith Lia.
From Verif Require Import Base M_Text M_Env M_Json S_Json S_Profile.
Open Scope string_scope.
Open Scope list_scope.
Open Scope nat_scope.

(** One character. *)
Definition idle_step (c : ascii) : option (list token * mode) :=
  if (c =?c c_sp) || (c =?c c_tab) || (c =?c c_nl) || (c =?c c_cr) then Some ([], Idle)
  else if c =?c c_lbrace then Some ([TOpen], Idle)
  else if c =?c c_rbrace then Some ([TClose], Idle)
  else if c =?c "[" then Some ([TList], Idle)
  else if c =?c "]" then Some ([TEnd], Idle)
  else if c =?c c_colon then Some ([TColon], Idle)
  else if c =?c c_comma then Some ([TComma], Idle)
  else if c =?c c_dq then Some ([], Text [])
  else if digit c || (c =?c c_minus) then Some ([], Num [c])
  else if letter c then Some ([], Word [c])
  else None.
Definition after (t : token) (r : option (list token * mode)) := match r with Some (l, m) => Some (t :: l, m) | None => None end.
Definition step (m : mode) (c : ascii) : option (list token * mode) :=
  match m with
  | Idle => idle_step c
  | Text a =>
      if c =?c c_dq then Some ([TString (rev a)], Idle)
      else if c =?c c_bslash then Some ([], Escape a)
      else if nat_of_ascii c <? 32 then None
      else Some ([], Text (c :: a))
  | Escape a =>
      if (c =?c c_dq) || (c =?c c_bslash) || (c =?c c_slash) then Some ([], Text (c :: a))
      else if c =?c "b" then Some ([], Text (ascii_of_nat 8 :: a))
      else if c =?c "f" then Some ([], Text (ascii_of_nat 12 :: a))
      else if c =?c "n" then Some ([], Text (c_nl :: a))
      else if c =?c "r" then Some ([], Text (c_cr :: a))
      else if c =?c "t" then Some ([], Text (c_tab :: a))
      else if c =?c "u" then Some ([], Hex 4 ("u"%char :: c_bslash :: a))
      else None
  | Hex n a => if hexdigit c then match n with S (S n') => Some ([], Hex (S n') (c :: a)) | _ => Some ([], Text (c :: a)) end else None
  | Num a => if numeric c then Some ([], Num (c :: a)) else if number (rev a) then after (TNumber (rev a)) (idle_step c) else None
  | Word a => if letter c then Some ([], Word (c :: a)) else if word (rev a) then after (TWord (rev a)) (idle_step c) else None
  end.
Definition pre (l : list token) (r : option (list token)) := match r with Some l' => Some (l ++ l') | None => None end.
Lemma pre_nil r : pre [] r = r. Proof. destruct r; reflexivity. Qed.
Lemma pre_app a b r : pre a (pre b r) = pre (a ++ b) r. Proof. destruct r; cbn; [rewrite app_assoc|]; reflexivity. Qed.
Lemma lex_step m c t : lex m (c :: t) = match step m c with Some (l, m') => pre l (lex m' t) | None => None end.
Proof.
  assert (I : (if (c =?c c_sp) || (c =?c c_tab) || (c =?c c_nl) || (c =?c c_cr) then lex Idle t
        else if c =?c c_lbrace then put TOpen (lex Idle t)
        else if c =?c c_rbrace then put TClose (lex Idle t)
        else if c =?c "[" then put TList (lex Idle t)
        else if c =?c "]" then put TEnd (lex Idle t)
        else if c =?c c_colon then put TColon (lex Idle t)
        else if c =?c c_comma then put TComma (lex Idle t)
        else if c =?c c_dq then lex (Text []) t
        else if digit c || (c =?c c_minus) then lex (Num [c]) t
        else if letter c then lex (Word [c]) t
        else None) = match idle_step c with Some (l, m') => pre l (lex m' t) | None => None end).
  { unfold idle_step. repeat match goal with |- context [if ?b then _ else _] => destruct b; [rewrite ?pre_nil; reflexivity|] end. reflexivity. }
  destruct m as [|a|a|n a|a|a]; cbn [lex step].
  - exact I.
  - repeat match goal with |- context [if ?b then _ else _] => destruct b; [rewrite ?pre_nil; reflexivity|] end. rewrite ?pre_nil. reflexivity.
  - repeat match goal with |- context [if ?b then _ else _] => destruct b; [rewrite ?pre_nil; reflexivity|] end. reflexivity.
  - destruct (hexdigit c); [|reflexivity]. destruct n as [|[|n]]; rewrite ?pre_nil; reflexivity.
  - destruct (numeric c); [rewrite pre_nil; reflexivity|]. destruct (number (rev a)); [|reflexivity]. rewrite I. destruct (idle_step c) as [[l m]|]; [|reflexivity]. cbn. destruct (lex m t); reflexivity.
  - destruct (letter c); [rewrite pre_nil; reflexivity|]. destruct (word (rev a)); [|reflexivity]. rewrite I. destruct (idle_step c) as [[l m]|]; [|reflexivity]. cbn. destruct (lex m t); reflexivity.
Qed.
(** Many characters. *)
Fixpoint run (m : mode) (t : str) : option (list token * mode) :=
  match t with
  | [] => Some ([], m)
  | c :: t' => match step m c with Some (l, m') => match run m' t' with Some (l', m'') => Some (l ++ l', m'') | None => None end | None => None end
  end.
Lemma run_cons m c t m' : step m c = Some ([], m') -> run m (c :: t) = run m' t.
Proof. intros H. cbn [run]. rewrite H. destruct (run m' t) as [[? ?]|]; reflexivity. Qed.
Lemma run_lex t : forall m r l m', run m t = Some (l, m') -> lex m (t ++ r) = pre l (lex m' r).
Proof.
  induction t as [|c t IH]; intros m r l m' H; cbn [run] in H.
  - injection H as <- <-. rewrite pre_nil. reflexivity.
  - cbn [app]. rewrite lex_step. destruct (step m c) as [[l1 m1]|]; [|discriminate]. destruct (run m1 t) as [[l2 m2]|] eqn:E; [|discriminate].
    injection H as <- <-. rewrite (IH _ _ _ _ E), pre_app. reflexivity.
Qed.
Lemma run_app a : forall m l m' b l' m'', run m a = Some (l, m') -> run m' b = Some (l', m'') -> run m (a ++ b) = Some (l ++ l', m'').
Proof.
  induction a as [|c a IH]; intros m l m' b l' m'' H H'; cbn [run app] in *.
  - injection H as <- <-. exact H'.
  - destruct (step m c) as [[l1 m1]|]; [|discriminate]. destruct (run m1 a) as [[l2 m2]|] eqn:E; [|discriminate].
    injection H as <- <-. rewrite (IH _ _ _ _ _ _ E H'), app_assoc. reflexivity.
Qed.

Lemma run_escape s : forall a, name_ok s -> run (Text a) (escape s) = Some ([], Text (rev (shown s) ++ a)).
Proof.
  unfold name_ok. induction s as [|c s IH]; intros a H; [reflexivity|]. cbn [forallb] in H. apply andb_true_iff in H. destruct H as [H1 H2].
  cbn [escape flat_map shown map rev]. fold (escape s). fold (shown s). change (ascii_of_nat 8) with c_bs. change (ascii_of_nat 8) with c_bs in H1. rewrite <- app_assoc. cbn [app].
  destruct ((c =?c c_bs) || (c =?c c_tab) || (c =?c c_nl) || (c =?c c_cr)) eqn:E.
  - cbn [app run]. change (step (Text a) c_sp) with (Some (@nil token, Text (c_sp :: a))). cbn [app]. rewrite (IH _ H2). reflexivity.
  - assert (P : printable c = true).
    { rewrite <- !orb_assoc in *. destruct (printable c); [reflexivity|]. cbn [orb] in H1. congruence. }
    unfold printable in P. apply Nat.leb_le in P.
    destruct (c =?c c_dq) eqn:D; [apply eqc_true in D; subst c; cbn [orb app]; rewrite (run_cons _ _ _ (Escape a)) by reflexivity; rewrite (run_cons _ _ _ (Text (c_dq :: a))) by reflexivity; rewrite (IH _ H2); reflexivity|].
    destruct (c =?c c_bslash) eqn:B; [apply eqc_true in B; subst c; cbn [orb app]; rewrite (run_cons _ _ _ (Escape a)) by reflexivity; rewrite (run_cons _ _ _ (Text (c_bslash :: a))) by reflexivity; rewrite (IH _ H2); reflexivity|].
    cbn [orb app run step]. rewrite D, B. destruct (nat_of_ascii c <? 32) eqn:L; [apply Nat.ltb_lt in L; lia|]. rewrite (IH _ H2). reflexivity.
Qed.
Lemma run_raw s : forall a, raw_ok s -> run (Text a) s = Some ([], Text (rev s ++ a)).
Proof.
  unfold raw_ok. induction s as [|c s IH]; intros a H; [reflexivity|]. cbn [forallb] in H. apply andb_true_iff in H. destruct H as [H1 H2].
  apply andb_true_iff in H1. destruct H1 as [H1 H3]. apply andb_true_iff in H1. destruct H1 as [H1 H4]. apply negb_true_iff in H3, H4.
  unfold printable in H1. apply Nat.leb_le in H1. cbn [run step]. rewrite H3, H4. destruct (nat_of_ascii c <? 32) eqn:L; [apply Nat.ltb_lt in L; lia|].
  rewrite (IH _ H2). cbn [rev app]. rewrite <- app_assoc. reflexivity.
Qed.

(** Numbers. *)
Lemma show_loop_shape fuel : forall n acc, n < fuel -> exists d, show_loop fuel n acc = d ++ acc /\ forallb digit d = true /\ d <> [] /\
  (n <> 0 -> match d with c :: _ => c =?c "0" = false | [] => False end) /\ (n = 0 -> d = ["0"%char]).
Proof.
  assert (DG : forall k, k < 10 -> digit (ascii_of_nat (48 + k)) = true /\ (k <> 0 -> ascii_of_nat (48 + k) =?c "0" = false)).
  { intros k K. do 10 (destruct k as [|k]; [split; [reflexivity|try reflexivity; congruence]|]). lia. }
  induction fuel as [|fuel IH]; intros n acc L; [lia|]. cbn [show_loop].
  destruct (DG (n mod 10)) as [D1 D2]; [apply Nat.mod_upper_bound; lia|].
  destruct (n / 10 =? 0) eqn:E.
  - apply Nat.eqb_eq in E. exists [ascii_of_nat (48 + n mod 10)]. split; [reflexivity|]. split; [cbn [forallb]; rewrite D1; reflexivity|].
    split; [discriminate|]. assert (n < 10) by (apply Nat.div_small_iff in E; lia). rewrite Nat.mod_small in * by lia. split; [exact D2|]. intros ->. reflexivity.
  - apply Nat.eqb_neq in E. assert (n / 10 < n) by (apply Nat.div_lt; [destruct n; [cbn in E; congruence|lia]|lia]).
    destruct (IH (n / 10) (ascii_of_nat (48 + n mod 10) :: acc) ltac:(lia)) as (d & A & B & C & D & _).
    exists (d ++ [ascii_of_nat (48 + n mod 10)]). rewrite A, <- app_assoc. split; [reflexivity|]. split; [rewrite forallb_app, B; cbn [forallb andb]; rewrite D1; reflexivity|].
    split; [destruct d; discriminate|]. split; [|intros ->; cbn in E; congruence]. intros _. specialize (D E). destruct d; [contradiction|exact D].
Qed.
Lemma show_shape n : forallb digit (show_nat n) = true /\ exists c r, show_nat n = c :: r /\ digit c = true /\ forallb digit r = true /\ (c =?c "0" = true -> r = []).
Proof.
  unfold show_nat. destruct (show_loop_shape (S n) n [] ltac:(lia)) as (d & A & B & C & D & E). rewrite app_nil_r in A. rewrite A. split; [exact B|].
  destruct d as [|c r]; [congruence|]. exists c, r. cbn [forallb] in B. apply andb_true_iff in B. destruct B as [B1 B2]. repeat split; [exact B1|exact B2|].
  destruct n as [|n]; [specialize (E eq_refl); injection E as -> ->; reflexivity|]. intros Z. rewrite (D ltac:(discriminate)) in Z. discriminate.
Qed.
Lemma after_digits_all r : forallb digit r = true -> after_digits r = [].
Proof. induction r as [|c r IH]; [reflexivity|]. cbn [forallb after_digits]. intros H. apply andb_true_iff in H. destruct H as [-> H]. apply IH. exact H. Qed.
Lemma after_digits_dot r x : forallb digit r = true -> after_digits (r ++ c_dot :: x) = c_dot :: x.
Proof. induction r as [|c r IH]; [reflexivity|]. cbn [forallb after_digits app]. intros H. apply andb_true_iff in H. destruct H as [-> H]. apply IH. exact H. Qed.
Lemma digit_minus c : digit c = true -> c =?c c_minus = false.
Proof. intros H. destruct (c =?c c_minus) eqn:E; [|reflexivity]. apply eqc_true in E. subst. discriminate. Qed.
Lemma number_show n : number (show_nat n) = true.
Proof.
  destruct (show_shape n) as (_ & c & r & -> & D & R & Z). unfold number. rewrite (digit_minus c D), D.
  destruct (c =?c "0"); [rewrite (Z eq_refl); reflexivity|]. rewrite after_digits_all by exact R. reflexivity.
Qed.
Lemma number_stamp s ns : number (show_nat s ++ c_dot :: show09 ns) = true.
Proof.
  destruct (show_shape s) as (_ & c & r & -> & D & R & Z). unfold number. cbn [app]. rewrite (digit_minus c D), D.
  assert (X : digits1 (show09 ns) = Some []).
  { destruct (show_shape ns) as (B & c' & r' & E & D' & R' & _). unfold show09.
    assert (A : forallb digit (repeat "0"%char (9 - length (show_nat ns)) ++ show_nat ns) = true).
    { rewrite forallb_app, B, andb_true_r. induction (9 - length (show_nat ns)) as [|k IH]; [reflexivity|]. cbn [repeat forallb]. rewrite IH. reflexivity. }
    destruct (repeat "0"%char (9 - length (show_nat ns)) ++ show_nat ns) as [|x y] eqn:F; [rewrite E in F; destruct (repeat _ _); discriminate|].
    cbn [forallb] in A. apply andb_true_iff in A. destruct A as [A1 A2]. unfold digits1. rewrite A1, after_digits_all by exact A2. reflexivity. }
  assert (Y : (if c =?c "0" then r ++ c_dot :: show09 ns else after_digits (r ++ c_dot :: show09 ns)) = c_dot :: show09 ns).
  { destruct (c =?c "0"); [rewrite (Z eq_refl); reflexivity|]. apply after_digits_dot. exact R. }
  rewrite Y, eqc_refl, X. reflexivity.
Qed.
Lemma number_neg n : number (c_minus :: show_nat n) = true.
Proof.
  pose proof (number_show n) as H. unfold number in *. rewrite eqc_refl. destruct (show_shape n) as (_ & c & r & E & D & _). rewrite E in *.
  rewrite (digit_minus c D) in H. exact H.
Qed.
Lemma run_num s : forall a, forallb numeric s = true -> run (Num a) s = Some ([], Num (rev s ++ a)).
Proof.
  induction s as [|c s IH]; intros a H; [reflexivity|]. cbn [forallb] in H. apply andb_true_iff in H. destruct H as [H1 H2].
  cbn [run step]. rewrite H1, (IH _ H2). cbn [rev app]. rewrite <- app_assoc. reflexivity.
Qed.
Lemma digits_numeric r : forallb digit r = true -> forallb numeric r = true.
Proof. intros H. apply forallb_forall. intros c I. rewrite forallb_forall in H. unfold numeric. rewrite (H c I). reflexivity. Qed.
Lemma idle_digit c : digit c = true -> step Idle c = Some ([], Num [c]).
Proof.
  intros D. cbn [step]. unfold idle_step.
  assert (N : forall x, digit x = false -> c =?c x = false).
  { intros x X. destruct (c =?c x) eqn:E; [|reflexivity]. apply eqc_true in E. subst. congruence. }
  rewrite !N by reflexivity. rewrite D. reflexivity.
Qed.
Lemma run_number s c r : s = c :: r -> digit c = true \/ c = c_minus -> forallb numeric r = true -> run Idle s = Some ([], Num (rev s)).
Proof.
  intros -> H R. cbn [run].
  assert (S1 : step Idle c = Some ([], Num [c])) by (destruct H as [H| ->]; [apply idle_digit; exact H|reflexivity]).
  rewrite S1, run_num by exact R. reflexivity.
Qed.
Lemma run_show n : run Idle (show_nat n) = Some ([], Num (rev (show_nat n))).
Proof. destruct (show_shape n) as (_ & c & r & E & D & R & _). rewrite E. apply (run_number _ c r); [reflexivity|left; exact D|apply digits_numeric; exact R]. Qed.
Lemma show_numeric n : forallb numeric (show_nat n) = true.
Proof. apply digits_numeric. exact (proj1 (show_shape n)). Qed.
Lemma run_int z : run Idle (show_int z) = Some ([], Num (rev (show_int z))) /\ number (show_int z) = true.
Proof.
  unfold show_int. destruct (z <? 0)%Z; [|split; [apply run_show|apply number_show]].
  split; [|apply number_neg]. apply (run_number _ c_minus (show_nat (Z.to_nat (- z)))); [reflexivity|right; reflexivity|apply show_numeric].
Qed.

(** Members of an object, with the commas after them. *)
Definition front (p : str) (kvs : list (str * json)) : Prop :=
  exists ts, run Idle p = Some (ts, Idle) /\ forall ts' l, members ts' l -> members (ts ++ ts') (kvs ++ l).
Lemma front_app p p' a b : front p a -> front p' b -> front (p ++ p') (a ++ b).
Proof.
  intros (ts & R & M) (ts' & R' & M'). exists (ts ++ ts'). split; [eapply run_app; eassumption|].
  intros x l H. rewrite <- !app_assoc. apply M, M', H.
Qed.
Lemma front_one p k vts v : run Idle p = Some (TString k :: TColon :: vts ++ [TComma], Idle) -> value vts v -> front p [(k, v)].
Proof.
  intros R V. eexists. split; [exact R|]. intros ts' l M. pose proof (m_more k vts v ts' l V M) as H. cbn [app] in *. rewrite <- app_assoc. exact H.
Qed.
Definition comma_nl : str := q "," ++ [c_nl].
Lemma front_string head k body v : run Idle head = Some ([TString k; TColon], Text []) -> run (Text []) body = Some ([], Text (rev v)) ->
  front (head ++ body ++ q "'," ++ [c_nl]) [(k, JString v)].
Proof.
  intros H B. apply (front_one _ k [TString v] (JString v)); [|constructor].
  pose proof (run_app body _ _ _ (q "'," ++ [c_nl]) [TString (rev (rev v)); TComma] Idle B ltac:(reflexivity)) as X.
  rewrite rev_involutive in X. exact (run_app head _ _ _ _ _ _ H X).
Qed.
Lemma run_after m s t : run m s = Some ([], Num (rev s)) -> number s = true -> run m (s ++ q "," ++ [c_nl] ++ t) = match run Idle t with Some (l, m') => Some (TNumber s :: TComma :: l, m') | None => None end.
Proof.
  intros R N.
  assert (C : run (Num (rev s)) (c_comma :: c_nl :: t) = match run Idle t with Some (l, m') => Some (TNumber s :: TComma :: l, m') | None => None end).
  { assert (P : step (Num (rev s)) c_comma = Some ([TNumber s; TComma], Idle)).
    { cbn [step]. change (numeric c_comma) with false. rewrite rev_involutive, N. reflexivity. }
    change (match step (Num (rev s)) c_comma with Some (l, m') => match run m' (c_nl :: t) with Some (l', m'') => Some (l ++ l', m'') | None => None end | None => None end =
      match run Idle t with Some (l, m') => Some (TNumber s :: TComma :: l, m') | None => None end).
    rewrite P, (run_cons Idle c_nl t Idle) by reflexivity. reflexivity. }
  destruct (run Idle t) as [[l m']|] eqn:E.
  - apply (run_app s m [] (Num (rev s)) _ (TNumber s :: TComma :: l) m' R). cbn [q app].
    change (run (Num (rev s)) (c_comma :: c_nl :: t) = Some (TNumber s :: TComma :: l, m')).
    exact C.
  - assert (X : forall s m ls m1, run m s = Some (ls, m1) -> forall b, run m1 b = None -> run m (s ++ b) = None).
    { clear. induction s as [|c s IH]; intros m ls m1 H b B; cbn [run app] in *; [injection H as _ ->; exact B|].
      destruct (step m c) as [[l m2]|]; [|discriminate]. destruct (run m2 s) as [[l2 m3]|] eqn:E; [|discriminate]. injection H as _ ->.
      rewrite (IH _ _ _ E _ B). reflexivity. }
    apply (X s m _ _ R). cbn [q app].
    change (run (Num (rev s)) (c_comma :: c_nl :: t) = None).
    exact C.
Qed.
Lemma front_number head k s : run Idle head = Some ([TString k; TColon], Idle) -> run Idle s = Some ([], Num (rev s)) -> number s = true ->
  front (head ++ s ++ q "," ++ [c_nl]) [(k, JNumber s)].
Proof.
  intros H R N. apply (front_one _ k [TNumber s] (JNumber s)); [|constructor].
  eapply (run_app head _ _ _ _ [TNumber s; TComma] Idle H). pose proof (run_after Idle s [] R N) as X. rewrite app_nil_r in X. exact X.
Qed.
(** The value with the printers of the model. *)
Definition stamp_json0 (t : option (nat * nat)) : json := match t with None => JWord (s2l "null") | Some _ => JNumber (stamp t) end.
Definition target_json0 (p : target) : json :=
  JObject [(s2l "name", JString (shown (p_name p))); (s2l "file", match p_file p with Some f => JString f | None => JWord (s2l "null") end);
    (s2l "line", JNumber (show_nat (p_line p))); (s2l "start", stamp_json0 (p_start p)); (s2l "deps", stamp_json0 (p_deps p));
    (s2l "recipe", stamp_json0 (p_recipe p)); (s2l "end", stamp_json0 (p_end p)); (s2l "depends", JList (names_json (p_calls p)))].
Definition profile_json0 (g : profile) : json :=
  JObject ([(s2l "version", JString (s2l "1.0.0")); (s2l "pid", JNumber (show_nat (g_pid g)))] ++
    match g_parent g with
    | Some (pid, Some t) => [(s2l "parent", JObject [(s2l "pid", JNumber (show_nat pid)); (s2l "target", JString (shown t))])]
    | _ => []
    end ++
    [(s2l "creator", JString (g_creator g)); (s2l "argv", JList (names_json (g_argv g))); (s2l "jobs", JNumber (show_int (g_jobs g)));
     (s2l "server", JWord (if g_server g then s2l "true" else s2l "false")); (s2l "status", JString (g_status g));
     (s2l "start", stamp_json0 (g_start g)); (s2l "end", stamp_json0 (g_end g)); (s2l "directory", JString (g_dir g));
     (s2l "entry", JList (names_json (g_goals g)))] ++ [(s2l "targets", JList (map target_json0 (g_targets g)))]).

Lemma front_stamp head k t : run Idle head = Some ([TString k; TColon], Idle) -> front (head ++ stamp t ++ q "," ++ [c_nl]) [(k, stamp_json0 t)].
Proof.
  intros H. destruct t as [[s ns]|].
  - apply front_number; [exact H| |apply number_stamp].
    cbn [stamp]. destruct (show_shape s) as (_ & c & r & E & D & R & _). rewrite E. apply (run_number _ c (r ++ c_dot :: show09 ns)); [reflexivity|left; exact D|].
    rewrite forallb_app, digits_numeric by exact R. cbn [forallb andb]. change (numeric c_dot) with true. cbn [andb]. unfold show09. rewrite forallb_app, show_numeric, andb_true_r.
    induction (9 - length (show_nat ns)) as [|j IH]; [reflexivity|]. cbn [repeat forallb]. rewrite IH. reflexivity.
  - apply (front_one _ k [TWord (s2l "null")] (JWord (s2l "null"))); [|constructor]. eapply (run_app head _ _ _ _ _ Idle H). reflexivity.
Qed.

(** Lists of names. *)
Fixpoint names_tokens (l : list str) : list token :=
  match l with [] => [] | [a] => [TString (shown a)] | a :: l' => TString (shown a) :: TComma :: names_tokens l' end.
Lemma names_items l : l <> [] -> items (names_tokens l) (names_json l).
Proof.
  induction l as [|a l IH]; [congruence|]. intros _. destruct l as [|b l].
  - apply i_one. constructor.
  - change (names_tokens (a :: b :: l)) with ([TString (shown a)] ++ TComma :: names_tokens (b :: l)). cbn [names_json map]. apply i_more; [constructor|]. apply IH. discriminate.
Qed.
Lemma list_value ts l : items ts l \/ (ts = [] /\ l = []) -> value (TList :: ts ++ [TEnd]) (JList l).
Proof. intros [H|[-> ->]]; [apply v_list; exact H|apply v_empty]. Qed.
Lemma names_value l : value (TList :: names_tokens l ++ [TEnd]) (JList (names_json l)).
Proof. apply list_value. destruct l; [right; split; reflexivity|left; apply names_items; discriminate]. Qed.
Lemma run_quoted (tabs : str) a (close : str) ts : run Idle tabs = Some ([], Idle) -> name_ok a ->
  (forall x, run (Text x) close = Some (TString (rev x) :: ts, Idle)) ->
  run Idle (tabs ++ q "'" ++ escape a ++ close) = Some (TString (shown a) :: ts, Idle).
Proof.
  intros T A C. apply (run_app tabs _ [] _ _ _ _ T). apply (run_app (q "'") Idle [] (Text []) _ _ _ ltac:(reflexivity)).
  pose proof (run_app (escape a) _ _ _ close _ _ (run_escape a [] A) (C _)) as X. rewrite app_nil_r, rev_involutive in X. exact X.
Qed.
Lemma run_names tabs l : run Idle tabs = Some ([], Idle) -> Forall name_ok l -> run Idle (dump_names tabs l) = Some (names_tokens l, Idle).
Proof.
  intros T F. induction F as [|a l A F IH]; [reflexivity|]. destruct l as [|b l].
  - cbn [dump_names names_tokens]. apply run_quoted; [exact T|exact A|reflexivity].
  - change (dump_names tabs (a :: b :: l)) with (tabs ++ q "'" ++ escape a ++ q "'," ++ [c_nl] ++ dump_names tabs (b :: l)).
    change (names_tokens (a :: b :: l)) with ([TString (shown a); TComma] ++ names_tokens (b :: l)).
    pose proof (run_quoted tabs a (q "'," ++ [c_nl]) [TComma] T A ltac:(reflexivity)) as X.
    pose proof (run_app _ _ _ _ _ _ _ X IH) as Y. rewrite <- !app_assoc in Y. exact Y.
Qed.
Lemma run_argv_rest l : Forall name_ok l -> run Idle (argv_rest l) = Some (flat_map (fun a => [TComma; TString (shown a)]) l, Idle).
Proof.
  intros F. induction F as [|a l A F IH]; [reflexivity|]. cbn [argv_rest flat_map].
  pose proof (run_quoted ([c_nl] ++ t2) a (q "'") [] ltac:(reflexivity) A ltac:(reflexivity)) as X.
  pose proof (run_app (q ",") Idle [TComma] Idle _ _ _ ltac:(reflexivity) X) as Y.
  pose proof (run_app _ _ _ _ _ _ _ Y IH) as W. rewrite <- !app_assoc in W. exact W.
Qed.
Lemma names_flat a l : names_tokens (a :: l) = TString (shown a) :: flat_map (fun b => [TComma; TString (shown b)]) l.
Proof.
  revert a. induction l as [|b l IH]; intros a; [reflexivity|]. change (names_tokens (a :: b :: l)) with (TString (shown a) :: TComma :: names_tokens (b :: l)).
  rewrite IH. reflexivity.
Qed.
Lemma front_argv l : Forall name_ok l -> front (dump_argv l) [(s2l "argv", JList (names_json l))].
Proof.
  intros F. apply (front_one _ _ (TList :: names_tokens l ++ [TEnd]) _); [|apply names_value]. unfold dump_argv.
  rewrite (app_assoc t1). apply (run_app (t1 ++ q "'argv': [") Idle [TString (s2l "argv"); TColon; TList] Idle _ ((names_tokens l ++ [TEnd]) ++ [TComma]) Idle ltac:(reflexivity)).
  rewrite <- app_assoc. apply (run_app _ Idle (names_tokens l) Idle); [|reflexivity].
  destruct F as [|a l A F]; [reflexivity|]. rewrite names_flat.
  pose proof (run_quoted ([c_nl] ++ t2) a (q "'") [] ltac:(reflexivity) A ltac:(reflexivity)) as X.
  pose proof (run_app _ _ _ _ _ _ _ X (run_argv_rest l F)) as Y. rewrite <- !app_assoc in Y. exact Y.
Qed.

(** Targets. *)
Lemma front_time (name : string) k t : run Idle (t3 ++ q name) = Some ([TString k; TColon], Idle) -> front (dump_time name t) [(k, stamp_json0 t)].
Proof. intros H. unfold dump_time. rewrite (app_assoc t3). apply front_stamp. exact H. Qed.
Lemma front_close p kvs rest k vts v pre post : front p kvs -> run Idle pre = Some ([TOpen], Idle) ->
  run Idle rest = Some (TString k :: TColon :: vts, Idle) -> value vts v -> run Idle post = Some ([TClose], Idle) ->
  exists ts, run Idle (pre ++ p ++ rest ++ post) = Some (ts, Idle) /\ value ts (JObject (kvs ++ [(k, v)])).
Proof.
  intros (ts & R & M) PR RR V PO. exists (TOpen :: (ts ++ TString k :: TColon :: vts) ++ [TClose]). split.
  - apply (run_app pre _ [TOpen] Idle _ ((ts ++ TString k :: TColon :: vts) ++ [TClose]) Idle PR). rewrite app_assoc.
    apply (run_app _ Idle _ Idle _ _ _); [|exact PO]. exact (run_app _ _ _ _ _ _ _ R RR).
  - apply v_object. apply M. apply m_one. exact V.
Qed.
Lemma dump_target_json p : target_ok p -> exists ts, run Idle (dump_target p) = Some (ts, Idle) /\ value ts (target_json0 p).
Proof.
  intros (A & B & C & _).
  assert (E : dump_target p = ([c_nl] ++ t2 ++ q "{" ++ [c_nl]) ++
    (((t3 ++ q "'name':'") ++ escape (p_name p) ++ q "'," ++ [c_nl]) ++
     (match p_file p with Some f => (t3 ++ q "'file':'") ++ f ++ q "'," ++ [c_nl] | None => t3 ++ q "'file':null," ++ [c_nl] end) ++
     ((t3 ++ q "'line':") ++ show_nat (p_line p) ++ q "," ++ [c_nl]) ++
     dump_time "'start':" (p_start p) ++ dump_time "'deps':" (p_deps p) ++ dump_time "'recipe':" (p_recipe p) ++ dump_time "'end':" (p_end p)) ++
    ((t3 ++ q "'depends':[" ++ [c_nl]) ++ dump_names t4 (p_calls p) ++ t3 ++ q "]" ++ [c_nl]) ++ (t2 ++ q "}")).
  { unfold dump_target. rewrite <- !app_assoc. destruct (p_file p); rewrite <- ?app_assoc; reflexivity. }
  rewrite E. unfold target_json0.
  eapply (front_close _ [_; _; _; _; _; _; _] _ _ (TList :: names_tokens (p_calls p) ++ [TEnd])); [| | |apply names_value|].
  - apply (front_app _ _ [_] [_; _; _; _; _; _]).
    { apply front_string; [reflexivity|]. rewrite (run_escape _ [] A), app_nil_r. reflexivity. }
    apply (front_app _ _ [_] [_; _; _; _; _]).
    { destruct (p_file p) as [f|].
      - apply front_string; [reflexivity|]. rewrite (run_raw _ [] B), app_nil_r. reflexivity.
      - apply (front_one _ _ [TWord (s2l "null")]); [reflexivity|constructor]. }
    apply (front_app _ _ [_] [_; _; _; _]).
    { apply front_number; [reflexivity|apply run_show|apply number_show]. }
    apply (front_app _ _ [_] [_; _; _]); [apply front_time; reflexivity|].
    apply (front_app _ _ [_] [_; _]); [apply front_time; reflexivity|].
    apply (front_app _ _ [_] [_]); [apply front_time; reflexivity|].
    apply front_time; reflexivity.
  - reflexivity.
  - apply (run_app _ Idle [TString (s2l "depends"); TColon; TList] Idle _ (names_tokens (p_calls p) ++ [TEnd]) Idle); [reflexivity|].
    apply (run_app _ _ (names_tokens (p_calls p)) Idle); [|reflexivity]. apply run_names; [reflexivity|exact C].
  - reflexivity.
Qed.
Lemma targets_rest_json l : Forall target_ok l -> exists tss, run Idle (targets_rest l) = Some (flat_map (fun ts => TComma :: ts) tss, Idle) /\ Forall2 value tss (map target_json0 l).
Proof.
  intros F. induction F as [|p l P F IH]; [exists []; split; [reflexivity|constructor]|].
  destruct IH as (tss & R & V). destruct (dump_target_json p P) as (ts & R1 & V1). exists (ts :: tss). split; [|constructor; assumption].
  cbn [targets_rest flat_map]. pose proof (run_app (q ",") Idle [TComma] Idle _ _ _ ltac:(reflexivity) (run_app _ _ _ _ _ _ _ R1 R)) as X. exact X.
Qed.
Lemma items_flat ts v tss vs : value ts v -> Forall2 value tss vs -> items (ts ++ flat_map (fun x => TComma :: x) tss) (v :: vs).
Proof.
  intros V F. revert ts v V. induction F as [|ts' v' tss vs V' F IH]; intros ts v V.
  - cbn [flat_map]. rewrite app_nil_r. apply i_one. exact V.
  - cbn [flat_map]. apply (i_more ts v (ts' ++ flat_map (fun x => TComma :: x) tss)); [exact V|]. apply IH. exact V'.
Qed.
Lemma dump_targets_json l : Forall target_ok l -> exists ts, run Idle (dump_targets l) = Some (ts, Idle) /\ (items ts (map target_json0 l) \/ (ts = [] /\ map target_json0 l = [])).
Proof.
  intros F. destruct F as [|p l P F]; [exists []; split; [reflexivity|right; split; reflexivity]|].
  destruct (targets_rest_json l F) as (tss & R & V). destruct (dump_target_json p P) as (ts & R1 & V1).
  exists (ts ++ flat_map (fun x => TComma :: x) tss). split; [exact (run_app _ _ _ _ _ _ _ R1 R)|]. left. apply items_flat; assumption.
Qed.

(** The profile. *)
Lemma dump_json0 g : profile_ok g -> match g_parent g with Some (_, None) => False | _ => True end ->
  exists t, dump g = Some t /\ document t (profile_json0 g).
Proof.
  intros (OP & OC & OA & OS & OD & OG & OT & _) NP.
  destruct (dump_targets_json (g_targets g) OT) as (tt & TR & TV).
  set (rest := ((t1 ++ q "'creator':'") ++ g_creator g ++ q "'," ++ [c_nl]) ++ dump_argv (g_argv g) ++
        ((t1 ++ q "'jobs':") ++ show_int (g_jobs g) ++ q "," ++ [c_nl]) ++
        (t1 ++ q "'server':" ++ (if g_server g then s2l "true" else s2l "false") ++ q "," ++ [c_nl]) ++
        ((t1 ++ q "'status':'") ++ g_status g ++ q "'," ++ [c_nl]) ++
        ((t1 ++ q "'start':") ++ stamp (g_start g) ++ q "," ++ [c_nl]) ++ ((t1 ++ q "'end':") ++ stamp (g_end g) ++ q "," ++ [c_nl]) ++
        ((t1 ++ q "'directory':'") ++ g_dir g ++ q "'," ++ [c_nl]) ++ ((t1 ++ q "'entry':[" ++ [c_nl]) ++ dump_names t2 (g_goals g) ++ t1 ++ q "]," ++ [c_nl])).
  assert (RF : front rest [(s2l "creator", JString (g_creator g)); (s2l "argv", JList (names_json (g_argv g))); (s2l "jobs", JNumber (show_int (g_jobs g)));
     (s2l "server", JWord (if g_server g then s2l "true" else s2l "false")); (s2l "status", JString (g_status g));
     (s2l "start", stamp_json0 (g_start g)); (s2l "end", stamp_json0 (g_end g)); (s2l "directory", JString (g_dir g));
     (s2l "entry", JList (names_json (g_goals g)))]).
  { unfold rest.
    apply (front_app _ _ [_] [_; _; _; _; _; _; _; _]); [apply front_string; [reflexivity|rewrite (run_raw _ [] OC), app_nil_r; reflexivity]|].
    apply (front_app _ _ [_] [_; _; _; _; _; _; _]); [apply front_argv; exact OA|].
    apply (front_app _ _ [_] [_; _; _; _; _; _]); [apply front_number; [reflexivity|apply run_int|apply run_int]|].
    apply (front_app _ _ [_] [_; _; _; _; _]); [apply (front_one _ _ [TWord (if g_server g then s2l "true" else s2l "false")]); [destruct (g_server g); reflexivity|constructor]|].
    apply (front_app _ _ [_] [_; _; _; _]); [apply front_string; [reflexivity|rewrite (run_raw _ [] OS), app_nil_r; reflexivity]|].
    apply (front_app _ _ [_] [_; _; _]); [apply front_stamp; reflexivity|].
    apply (front_app _ _ [_] [_; _]); [apply front_stamp; reflexivity|].
    apply (front_app _ _ [_] [_]); [apply front_string; [reflexivity|rewrite (run_raw _ [] OD), app_nil_r; reflexivity]|].
    apply (front_one _ _ (TList :: names_tokens (g_goals g) ++ [TEnd])); [|apply names_value].
    apply (run_app _ Idle [TString (s2l "entry"); TColon; TList] Idle _ ((names_tokens (g_goals g) ++ [TEnd]) ++ [TComma]) Idle); [reflexivity|].
    rewrite <- app_assoc. apply (run_app _ Idle (names_tokens (g_goals g)) Idle); [|reflexivity]. apply run_names; [reflexivity|exact OG]. }
  set (last := (t1 ++ q "'targets':[") ++ dump_targets (g_targets g) ++ [c_nl] ++ t1 ++ q "]" ++ [c_nl]).
  assert (LR : run Idle last = Some (TString (s2l "targets") :: TColon :: TList :: tt ++ [TEnd], Idle)).
  { apply (run_app _ Idle [TString (s2l "targets"); TColon; TList] Idle _ (tt ++ [TEnd]) Idle); [reflexivity|]. apply (run_app _ Idle tt Idle); [exact TR|reflexivity]. }
  set (first := (t1 ++ q "'version':'1.0.0'," ++ [c_nl]) ++ (t1 ++ q "'pid':") ++ show_nat (g_pid g) ++ q "," ++ [c_nl]).
  assert (FF : front first [(s2l "version", JString (s2l "1.0.0")); (s2l "pid", JNumber (show_nat (g_pid g)))]).
  { apply (front_app _ _ [_] [_]); [apply (front_one _ _ [TString (s2l "1.0.0")]); [reflexivity|constructor]|]. apply front_number; [reflexivity|apply run_show|apply number_show]. }
  assert (D : forall par kv, front par kv -> forall a, a = (q "{" ++ [c_nl]) ++ first ++ par ->
    exists ts, run Idle (a ++ rest ++ last ++ q "}") = Some (ts, Idle) /\
      value ts (JObject ([(s2l "version", JString (s2l "1.0.0")); (s2l "pid", JNumber (show_nat (g_pid g)))] ++ kv ++
      [(s2l "creator", JString (g_creator g)); (s2l "argv", JList (names_json (g_argv g))); (s2l "jobs", JNumber (show_int (g_jobs g)));
     (s2l "server", JWord (if g_server g then s2l "true" else s2l "false")); (s2l "status", JString (g_status g));
     (s2l "start", stamp_json0 (g_start g)); (s2l "end", stamp_json0 (g_end g)); (s2l "directory", JString (g_dir g));
     (s2l "entry", JList (names_json (g_goals g)))] ++ [(s2l "targets", JList (map target_json0 (g_targets g)))]))).
  { intros par kv PF a ->. pose proof (front_app _ _ _ _ FF (front_app _ _ _ _ PF RF)) as W.
    destruct (front_close _ _ last _ _ (JList (map target_json0 (g_targets g))) (q "{" ++ [c_nl]) (q "}") W ltac:(reflexivity) LR (list_value _ _ TV) ltac:(reflexivity)) as (ts & A & B).
    exists ts. split.
    - rewrite <- !app_assoc in *. exact A.
    - rewrite <- !app_assoc in B. exact B. }
  assert (FIN : forall a, preamble g = Some a -> dump g = Some (a ++ rest ++ last ++ q "}")).
  { intros a E. unfold dump. rewrite E. f_equal. unfold rest, last. rewrite <- !app_assoc. reflexivity. }
  assert (DOC : forall t ts, run Idle t = Some (ts, Idle) -> lex Idle t = Some ts).
  { intros t ts R. rewrite <- (app_nil_r t). rewrite (run_lex t _ [] _ _ R). cbn. rewrite app_nil_r. reflexivity. }
  unfold profile_json0. destruct (g_parent g) as [[pid [t|]]|] eqn:GP; [|contradiction|].
  - set (par := t1 ++ q "'parent':{" ++ [c_nl] ++ t2 ++ q "'pid':" ++ show_nat pid ++ q "," ++ [c_nl] ++
            t2 ++ q "'target':'" ++ escape t ++ q "'" ++ [c_nl] ++ t1 ++ q "}," ++ [c_nl]).
    assert (PF : front par [(s2l "parent", JObject [(s2l "pid", JNumber (show_nat pid)); (s2l "target", JString (shown t))])]).
    { apply (front_one _ _ (TOpen :: ([TString (s2l "pid"); TColon; TNumber (show_nat pid)] ++ TComma :: [TString (s2l "target"); TColon; TString (shown t)]) ++ [TClose])).
      - unfold par. rewrite (app_assoc t1).
        apply (run_app (t1 ++ q "'parent':{") Idle [TString (s2l "parent"); TColon; TOpen] Idle _ _ _ ltac:(reflexivity)). rewrite (app_assoc t2), (app_assoc [c_nl]).
        apply (run_app ([c_nl] ++ t2 ++ q "'pid':") Idle [TString (s2l "pid"); TColon] Idle _ _ _ ltac:(reflexivity)).
        rewrite (run_after _ _ _ (run_show pid) (number_show pid)).
        assert (X : run Idle (t2 ++ q "'target':'" ++ escape t ++ q "'" ++ [c_nl] ++ t1 ++ q "}," ++ [c_nl]) = Some ([TString (s2l "target"); TColon; TString (shown t); TClose; TComma], Idle)).
        { rewrite (app_assoc t2). apply (run_app (t2 ++ q "'target':'") Idle [TString (s2l "target"); TColon] (Text []) _ [TString (shown t); TClose; TComma] Idle ltac:(reflexivity)).
          pose proof (run_app (escape t) _ _ _ (q "'" ++ [c_nl] ++ t1 ++ q "}," ++ [c_nl]) [TString (rev (rev (shown t) ++ [])); TClose; TComma] Idle (run_escape t [] OP) ltac:(reflexivity)) as X.
          rewrite app_nil_r, rev_involutive in X. exact X. }
        rewrite X. reflexivity.
      - apply v_object. apply (m_more _ [TNumber (show_nat pid)]); [constructor|]. apply m_one. constructor. }
    assert (PA : preamble g = Some ((q "{" ++ [c_nl]) ++ first ++ par)).
    { unfold preamble. rewrite GP. f_equal. }
    destruct (D par _ PF _ eq_refl) as (ts & A & B). eexists. split; [apply (FIN _ PA)|]. exists ts. split; [apply DOC; exact A|exact B].
  - assert (PA : preamble g = Some ((q "{" ++ [c_nl]) ++ first ++ [])).
    { unfold preamble. rewrite GP. f_equal. unfold first. rewrite app_nil_r, <- !app_assoc. reflexivity. }
    assert (PF : front [] []) by (exists []; split; [reflexivity|intros ? ? H; exact H]).
    destruct (D [] _ PF _ eq_refl) as (ts & A & B). eexists. split; [apply (FIN _ PA)|]. exists ts. split; [apply DOC; exact A|exact B].
Qed.

(** The printers of the model. *)
Lemma div10 n : (n / 10 =? 0) = (n <? 10).
Proof. destruct (n <? 10) eqn:E; [apply Nat.ltb_lt in E; apply Nat.eqb_eq, Nat.div_small, E|]. apply Nat.ltb_ge in E. apply Nat.eqb_neq. intros K. apply Nat.div_small_iff in K; lia. Qed.
Lemma show_decimal_loop f : forall n acc, show_loop f n acc = decimal_of f n ++ acc.
Proof.
  induction f as [|f IH]; intros n acc; [reflexivity|]. cbn [show_loop decimal_of]. rewrite div10. unfold numeral. destruct (n <? 10); [reflexivity|]. rewrite IH, <- app_assoc. reflexivity.
Qed.
Lemma show_decimal n : show_nat n = decimal n.
Proof. unfold show_nat, decimal. rewrite show_decimal_loop, app_nil_r. reflexivity. Qed.
Lemma show_integer z : show_int z = integer z.
Proof. unfold show_int, integer. rewrite !show_decimal. reflexivity. Qed.
Lemma decimal_fuel f : forall n, n < f -> decimal_of f n = decimal n.
Proof.
  assert (X : forall f f' n, n < f -> n < f' -> decimal_of f n = decimal_of f' n).
  { clear. induction f as [|f IH]; intros f' n L L'; [lia|]. destruct f' as [|f']; [lia|]. cbn [decimal_of]. destruct (n <? 10) eqn:E; [reflexivity|]. apply Nat.ltb_ge in E.
    assert (n / 10 < n) by (apply Nat.div_lt; lia). rewrite (IH f') by lia. reflexivity. }
  intros n L. apply X; lia.
Qed.
Lemma decimal_step n : decimal n = (if n <? 10 then [] else decimal (n / 10)) ++ [numeral n].
Proof.
  unfold decimal at 1. cbn [decimal_of]. destruct (n <? 10) eqn:E; [reflexivity|]. apply Nat.ltb_ge in E. rewrite decimal_fuel; [reflexivity|]. apply Nat.div_lt; lia.
Qed.
Lemma low_pad k : forall n, n < 10 ^ S k -> low (S k) n = repeat "0"%char (S k - length (decimal n)) ++ decimal n.
Proof.
  induction k as [|k IH]; intros n L.
  - rewrite decimal_step. assert (E : (n <? 10) = true) by (apply Nat.ltb_lt; cbn in L; lia). rewrite E. reflexivity.
  - change (low (S (S k)) n) with (low (S k) (n / 10) ++ [numeral n]). assert (L' : n / 10 < 10 ^ S k) by (apply Nat.div_lt_upper_bound; [lia|]; rewrite <- Nat.pow_succ_r'; exact L).
    rewrite (IH _ L'). rewrite (decimal_step n). destruct (n <? 10) eqn:E.
    + apply Nat.ltb_lt in E. rewrite (Nat.div_small n 10 E). change (decimal 0) with ["0"%char]. cbn [app length].
      replace (S (S k) - 1) with (S (S k - 1)) by lia. cbn [repeat]. rewrite repeat_cons. reflexivity.
    + rewrite !app_length. cbn [length]. rewrite <- app_assoc. f_equal. f_equal. lia.
Qed.
Lemma show09_low ns : (N.of_nat ns < 1000000000)%N -> show09 ns = low 9 ns.
Proof.
  intros L. unfold show09. rewrite show_decimal. symmetry. apply (low_pad 8). 
  assert (P : forall k, N.of_nat (10 ^ k) = (10 ^ N.of_nat k)%N).
  { induction k as [|k IHk]; [reflexivity|]. rewrite Nat.pow_succ_r', Nat2N.inj_mul, IHk, (Nat2N.inj_succ k), N.pow_succ_r by lia. reflexivity. }
  assert (Q : (N.of_nat ns < N.of_nat (10 ^ 9))%N) by (rewrite P; exact L). lia.
Qed.
Lemma stamp_same t : time_ok t -> stamp_json0 t = stamp_json t.
Proof. destruct t as [[s ns]|]; [|reflexivity]. cbn [time_ok]. intros L. cbn [stamp_json0 stamp_json stamp]. unfold seconds. rewrite show_decimal, (show09_low ns L). reflexivity. Qed.
Lemma target_same p : target_ok p -> target_json0 p = target_json p.
Proof. intros (_ & _ & _ & A & B & C & D). unfold target_json0, target_json. rewrite !stamp_same, show_decimal by assumption. reflexivity. Qed.
Lemma profile_same g : profile_ok g -> profile_json0 g = profile_json g.
Proof.
  intros (_ & _ & _ & _ & _ & _ & T & A & B). unfold profile_json0, profile_json. rewrite !stamp_same, show_integer, show_decimal by assumption.
  assert (E : map target_json0 (g_targets g) = map target_json (g_targets g)) by (induction T as [|p l P T IH]; [reflexivity|]; cbn [map]; rewrite (target_same p P), IH; reflexivity).
  rewrite E. destruct (g_parent g) as [[pid [t|]]|]; rewrite ?show_decimal; reflexivity.
Qed.
Lemma dump_json g : profile_ok g -> match g_parent g with Some (_, None) => False | _ => True end ->
  exists t, dump g = Some t /\ document t (profile_json g).
Proof. intros K. rewrite <- (profile_same g K). exact (dump_json0 g K). Qed.
