(** What a file name stands for: home directories, wildcards and members of archives. *)
From Verif Require Import Base M_Seq S_Implicit S_Ar S_Quote S_Seq.
Open Scope string_scope.
Open Scope list_scope.
Open Scope nat_scope.

Definition wild (n : str) : Prop := exists c, In c n /\ (c = "?"%char \/ c = "*"%char \/ c = "["%char).
(** A name that begins with "~" may be that of a home directory. *)
Inductive home (tilde : str -> option str) : str -> str -> Prop :=
| h_plain n : (forall r, n <> "~"%char :: r) -> home tilde n n
| h_known r n : tilde ("~"%char :: r) = Some n -> home tilde ("~"%char :: r) n
| h_unknown r : tilde ("~"%char :: r) = None -> home tilde ("~"%char :: r) ("~"%char :: r).
(** The files a name or pattern matches.  If nothing matches, the pattern stays, unless only files that exist are asked for ([exist]). *)
Inductive files (exist : bool) (glob : str -> gres) : str -> list str -> Prop :=
| fl_plain n : exist = false -> ~ wild n -> files exist glob n [n]
| fl_found n l : exist = true \/ wild n -> glob n = GFound l -> files exist glob n l
| fl_kept n : exist = false -> wild n -> glob n = GNoMatch -> files exist glob n [n]
| fl_gone n : exist = true -> glob n = GNoMatch -> files exist glob n []
| fl_other n : exist = true \/ wild n -> glob n = GOther -> files exist glob n [n].
Definition of_archive (x m : str) : str := x ++ c_lparen :: m ++ [c_rparen].
(** The members of the archive [x] that the pattern [m] matches; if there are none, the name as it is. *)
Inductive member_names (members : str -> str -> list str) (m x : str) : list str -> Prop :=
| mn_found : special m -> members x m <> [] -> member_names members m x (map (of_archive x) (members x m))
| mn_plain : ~ special m \/ members x m = [] -> member_names members m x [of_archive x m].
(** lib((entry)). *)
Definition entry_name (n : str) : Prop := exists lib e, lib <> [] /\ ~ In c_lparen lib /\ n = of_archive lib (c_lparen :: e ++ [c_rparen]).
Inductive stands (noar exist : bool) (tilde : str -> option str) (glob : str -> gres) (members : str -> str -> list str) : str -> list str -> Prop :=
| st_file n n' l : home tilde n n' -> noar = true \/ ~ member_reference n' -> files exist glob n' l -> stands noar exist tilde glob members n l
| st_member n lib m libs ls : home tilde n (of_archive lib m) -> noar = false -> lib <> [] -> ~ In c_lparen lib -> m <> [] -> ~ entry_name (of_archive lib m) ->
    files exist glob lib libs -> Forall2 (member_names members m) libs ls -> stands noar exist tilde glob members n (concat ls).
(** A name that make refuses. *)
Definition refused (noar : bool) (tilde : str -> option str) (n : str) : Prop := noar = false /\ exists n', home tilde n n' /\ entry_name n'.
(** The names of a text up to a stop character, as prerequisites are read. *)
Definition listed (stop : ascii -> bool) (tilde : str -> option str) (glob : str -> gres) (members : str -> str -> list str) (text : str) (l : list str) (rest : str) : Prop :=
  exists ws ns ls, reads stop isblank text ws rest /\ grouped (map clean ws) ns /\ Forall2 (stands false false tilde glob members) ns ls /\ l = concat ls.
