(** What a user of the string cache relies on, in terms of pointers and the memory behind
    them: nothing here mentions how blocks are chosen. *)
From Verif Require Import Base M_Hash M_StrCache.
Open Scope nat_scope.

Definition c_string (s : str) : Prop := ~ In c_nul s.

(** The bytes of the C strings at two pointers (terminators included) do not overlap. *)
Definition disjoint_strings (h : handle) (s : str) (h' : handle) (s' : str) : Prop :=
  fst h <> fst h' \/
  (forall k k', k <= length s -> k' <= length s' -> snd h + k <> snd h' + k').
