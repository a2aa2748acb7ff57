(** What the automatic variables mean. *)
From Coq Require Import Sorted.
From Verif Require Import Base M_Implicit S_Implicit M_Auto.

(** Words with a space between them. *)
Fixpoint spaced (ws : list str) : str :=
  match ws with
  | [] => []
  | [w] => w
  | w :: ws' => w ++ c_sp :: spaced ws'
  end.

(** How a name is listed: of a member of an archive, the member. *)
Inductive listed_as : str -> str -> Prop :=
| la_member a m : a <> [] -> ~ In c_lparen a -> m <> [] -> listed_as (a ++ c_lparen :: m ++ [c_rparen]) m
| la_plain n : ~ member_reference n -> listed_as n n.

Section Prerequisites.
  Variable ds : list adep.
  (** The prerequisite at a place; those still to be expanded and those of .EXTRA_PREREQS do not
      count. *)
  Definition at_place (j : nat) (d : adep) : Prop := nth_error ds j = Some d /\ a_2nd d = false /\ a_ignored d = false.
  Definition is_first (j : nat) (d : adep) : Prop := at_place j d /\ forall k d', k < j -> at_place k d' -> a_name d' <> a_name d.
  Definition normal (n : str) : Prop := exists k d, at_place k d /\ a_name d = n /\ a_order d = false.

  Definition in_plus (j : nat) : Prop := exists d, at_place j d /\ a_order d = false.
  Definition in_caret (j : nat) : Prop := exists d, is_first j d /\ normal (a_name d).
  Definition in_bar (j : nat) : Prop := exists d, is_first j d /\ ~ normal (a_name d).
  Definition in_qmark (always : bool) (j : nat) : Prop := exists d, is_first j d /\ normal (a_name d) /\ (a_changed d = true \/ always = true).

  (** The value lists the names at these places, in order. *)
  Definition listing (P : nat -> Prop) (v : str) : Prop :=
    exists js ws, StronglySorted lt js /\ (forall j, In j js <-> P j) /\
      Forall2 (fun j w => exists d, nth_error ds j = Some d /\ listed_as (a_name d) w) js ws /\ v = spaced ws.

  (** Prerequisites with the same name have changed or not changed together. *)
  Definition consistent : Prop := forall j k d d', at_place j d -> at_place k d' -> a_name d = a_name d' -> a_changed d = a_changed d'.
End Prerequisites.

(** $*: the name without the first of the suffixes that it has, not being all of it. *)
Inductive stripped (name : str) : list str -> str -> Prop :=
| st_none : stripped name [] []
| st_here s l x : name = x ++ s -> x <> [] -> stripped name (s :: l) x
| st_later s l x : (forall y, y <> [] -> name <> y ++ s) -> stripped name l x -> stripped name (s :: l) x.
