(** Characters, strings and the character classes used throughout.

    C strings are modelled as [list ascii] holding the bytes in front of the
    terminating NUL; the terminator itself is the end of the list. *)
From Coq Require Export Ascii String Arith ZArith NArith Bool Lia Permutation List.
Export ListNotations.
Open Scope list_scope.

Definition str := list ascii.
Coercion s2l (s : string) : str := list_ascii_of_string s.

Definition c_nul : ascii := ascii_of_nat 0.
Definition c_tab : ascii := ascii_of_nat 9.
Definition c_nl : ascii := ascii_of_nat 10.
Definition c_vt : ascii := ascii_of_nat 11.
Definition c_ff : ascii := ascii_of_nat 12.
Definition c_cr : ascii := ascii_of_nat 13.
Definition c_sp : ascii := ascii_of_nat 32.
Definition c_dq : ascii := ascii_of_nat 34.
Definition c_dollar : ascii := ascii_of_nat 36.
Definition c_percent : ascii := ascii_of_nat 37.
Definition c_sq : ascii := ascii_of_nat 39.
Definition c_lparen : ascii := ascii_of_nat 40.
Definition c_rparen : ascii := ascii_of_nat 41.
Definition c_plus : ascii := ascii_of_nat 43.
Definition c_comma : ascii := ascii_of_nat 44.
Definition c_minus : ascii := ascii_of_nat 45.
Definition c_dot : ascii := ascii_of_nat 46.
Definition c_slash : ascii := ascii_of_nat 47.
Definition c_colon : ascii := ascii_of_nat 58.
Definition c_semi : ascii := ascii_of_nat 59.
Definition c_eq : ascii := ascii_of_nat 61.
Definition c_at : ascii := ascii_of_nat 64.
Definition c_bslash : ascii := ascii_of_nat 92.
Definition c_lbrace : ascii := ascii_of_nat 123.
Definition c_pipe : ascii := ascii_of_nat 124.
Definition c_rbrace : ascii := ascii_of_nat 125.

Infix "=?c" := Ascii.eqb (at level 70, no associativity).

(** src/makeint.h:445 ISBLANK with src/misc.c:790-791: space and tab. *)
Definition isblank (c : ascii) : bool := (c =?c c_sp) || (c =?c c_tab).

(** src/makeint.h:446 ISSPACE with src/misc.c:790-804: blanks and the remaining
    [isspace] characters of the C locale (newline, VT, FF, CR). *)
Definition isspace (c : ascii) : bool :=
  isblank c || (c =?c c_nl) || (c =?c c_vt) || (c =?c c_ff) || (c =?c c_cr).

Definition str_eq_dec : forall a b : str, {a = b} + {a <> b} :=
  list_eq_dec ascii_dec.

Fixpoint str_eqb (a b : str) : bool :=
  match a, b with
  | [], [] => true
  | x :: a', y :: b' => (x =?c y) && str_eqb a' b'
  | _, _ => false
  end.

Lemma str_eqb_eq : forall a b, str_eqb a b = true <-> a = b.
Proof.
  induction a as [|x a IH]; destruct b as [|y b]; simpl; split; intros H;
    try reflexivity; try discriminate.
  - apply andb_true_iff in H. destruct H as [H1 H2].
    apply Ascii.eqb_eq in H1. apply IH in H2. congruence.
  - inversion H; subst. rewrite Ascii.eqb_refl. simpl. apply IH. reflexivity.
Qed.

Lemma str_eqb_refl : forall a, str_eqb a a = true.
Proof. intros a. apply str_eqb_eq. reflexivity. Qed.

Lemma str_eqb_neq : forall a b, str_eqb a b = false <-> a <> b.
Proof.
  intros a b. destruct (str_eqb a b) eqn:E.
  - apply str_eqb_eq in E. subst. split; congruence.
  - split; [|reflexivity]. intros _ H. subst. rewrite str_eqb_refl in E. discriminate.
Qed.

Lemma eqc_true : forall a b : ascii, (a =?c b) = true -> a = b.
Proof. intros a b H. apply Ascii.eqb_eq. exact H. Qed.

Lemma eqc_false : forall a b : ascii, (a =?c b) = false -> a <> b.
Proof. intros a b H. apply Ascii.eqb_neq. exact H. Qed.

Lemma eqc_refl : forall a : ascii, (a =?c a) = true.
Proof. intros a. apply Ascii.eqb_refl. Qed.

Lemma isblank_isspace : forall c, isblank c = true -> isspace c = true.
Proof. intros c H. unfold isspace. rewrite H. reflexivity. Qed.

(** Destruct the first [if c =?c d] found, turning the positive case into an
    equality and the negative case into a disequality. *)
Ltac case_eqc :=
  match goal with
  | |- context [?a =?c ?b] =>
      let E := fresh "E" in
      destruct (a =?c b) eqn:E;
      [apply eqc_true in E | apply eqc_false in E]
  end.
