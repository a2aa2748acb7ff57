(** Archives, as ar writes them: a magic line, then members, each with a header of 60 bytes. *)
From Verif Require Import Base S_Text.
Open Scope string_scope.
Open Scope list_scope.
Open Scope nat_scope.

Definition number (s : str) (z : Z) : Prop := s <> [] /\ Forall is_dig s /\ z = dec_value s.
(** [t]: [s] and blanks, [w] bytes together. *)
Definition padded (w : nat) (s t : str) : Prop := length t = w /\ exists n, t = s ++ repeat c_sp n.

(** What is known of a member: its name, whether the name is in the header, the position of the header, the size and, except
    for the members ar makes itself, the date. *)
Record entry := mkentry { e_name : str; e_short : bool; e_pos : Z; e_size : Z; e_date : option Z }.

Definition max_int : Z := 2147483647.
(** [kind table data id n short need table']: [id] and [data] are the name field and the data of a member called [n];
    [table], [table']: the table of long names before and after it; [need]: memory needed for the name or the table. *)
Inductive kind (table : option str) (data : str) : str -> str -> bool -> Z -> option str -> Prop :=
(** "name/" *)
| k_slash n id : n <> [] -> (forall c, In c n -> c <> c_nul /\ c <> c_slash) -> (forall r, n <> c_sp :: r) -> n <> s2l "ARFILENAMES" ->
    padded 16 (n ++ [c_slash]) id -> kind table data id n true 0 table
(** "name" *)
| k_bare n id : n <> [] -> (forall c, In c n -> c <> c_nul /\ c <> c_slash) -> (forall r, n <> c_sp :: r) -> (forall r, n <> r ++ [c_sp]) ->
    padded 16 n id -> kind table data id n true 0 table
(** "/27": byte 27 of the table of names, where "name/" or "name" is a line *)
| k_table a n slash b s id : table = Some (a ++ n ++ slash ++ c_nl :: b) -> n <> [] -> (forall c, In c n -> c <> c_nul /\ c <> c_nl) ->
    slash = [c_slash] \/ slash = [] /\ (forall r, n <> r ++ [c_slash]) ->
    number s (Z.of_nat (length a)) -> padded 16 (c_slash :: s) id -> kind table data id n false 0 table
(** "#1/20": the name is the first 20 bytes of the data, filled up with NULs *)
| k_data n z rest s id : data = n ++ repeat c_nul z ++ rest -> n <> [] -> ~ In c_nul n ->
    number s (Z.of_nat (length n + z)) -> (Z.of_nat (length n + z) < max_int)%Z -> padded 16 (s2l "#1/" ++ s) id ->
    kind table data id n false (Z.of_nat (length n + z) + 1) table
(** "/": the table of symbols *)
| k_symbols id : padded 16 [c_slash] id -> kind table data id [] true 0 table
(** "//" or "ARFILENAMES/": the table of names *)
| k_names n id : n = [c_slash] \/ n = s2l "ARFILENAMES" -> padded 16 (n ++ [c_slash]) id -> (forall r, data <> c_nl :: r) -> (Z.of_nat (length data) <= max_int)%Z ->
    kind table data id n true (Z.of_nat (length data) + 1) (Some data).

(** The date: up to 11 digits and a blank, or not known. *)
Definition dated (h : str) (date : option Z) : Prop :=
  length h = 32 /\ match date with None => True | Some z => exists s r, number s z /\ length s < 12 /\ h = s ++ c_sp :: r end.
Definition mark : str := [ascii_of_nat 96; c_nl].
Definition magic_line : str := s2l "!<arch>" ++ [c_nl].

(** [archive table pos t l need]: [t] is the text of members [l], the first of which is at [pos]. *)
Inductive archive : option str -> Z -> str -> list entry -> Z -> Prop :=
| a_end table pos : archive table pos [] [] 0
| a_entry table table' pos id n short need h date s size data pad rest l needs :
    kind table data id n short need table' -> dated h date -> number s (Z.of_nat (length data)) -> padded 10 s size ->
    length pad = length data mod 2 ->
    archive table' (pos + Z.of_nat (60 + length data + length pad)) rest l needs ->
    archive table pos (id ++ h ++ size ++ mark ++ data ++ pad ++ rest) (mkentry n short pos (Z.of_nat (length data)) date :: l) (need + needs).

(** The last part of a file name. *)
Definition base (name b : str) : Prop := ~ In c_slash b /\ (name = b \/ exists d, name = d ++ c_slash :: b).

(** What follows the members of a damaged archive: the beginning of a header, or a header without its mark. *)
Definition damaged (junk : str) : Prop := junk <> [] /\ (length junk < 60 \/ exists h m r, junk = h ++ m ++ r /\ length h = 58 /\ length m = 2 /\ m <> mark).

(** A backslash quotes the character behind it; [whole]: the text does not end within such a pair. *)
Inductive whole : str -> Prop :=
| wh_nil : whole []
| wh_one c s : c <> c_bslash -> whole s -> whole (c :: s)
| wh_two c s : whole s -> whole (c_bslash :: c :: s).
(** A pattern has a "?" or "*" that is not quoted, or a "[" and behind it a "]". *)
Definition special (p : str) : Prop :=
  exists a, whole a /\ ((exists c b, p = a ++ c :: b /\ (c = "?"%char \/ c = "*"%char)) \/ (exists m b, p = a ++ "["%char :: m ++ "]"%char :: b /\ whole m)).
