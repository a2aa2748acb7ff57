(** Lists of file names. *)
From Verif Require Import Base S_Quote.
Open Scope string_scope.
Open Scope list_scope.
Open Scope nat_scope.

Fixpoint trim (s : str) : str := match s with c :: s' => if isspace c then trim s' else s | [] => [] end.
(** The words of a text up to an unquoted stop character; a word ends at an unquoted [blank] or stop character. *)
Inductive reads (stop blank : ascii -> bool) : str -> list str -> str -> Prop :=
| r_end t : trim t = [] -> reads stop blank t [] []
| r_stop t c r : trim t = c :: r -> stop c = true -> reads stop blank t [] (c :: r)
| r_word t c r w rest ws e : trim t = c :: r -> stop c = false ->
    unq (fun x => stop x || blank x) 0 (c :: r) = (w, rest) ->
    reads stop blank (match rest with Some x => x | None => [] end) ws e -> reads stop blank t (w :: ws) e.

(** Leading "./", with any number of slashes, are dropped; a name that is nothing else is "./". *)
Fixpoint undot (slashes : bool) (s : str) : str :=
  match s with
  | [] => []
  | a :: r =>
      if slashes && (a =?c c_slash) then undot true r
      else match r with
           | b :: r' => if (a =?c c_dot) && (b =?c c_slash) then undot true r' else s
           | [] => s
           end
  end.
Definition clean (s : str) : str := match undot false s with [] => s2l "./" | a :: r => a :: r end.

(** lib(a b c) means lib(a) lib(b) lib(c). *)
Definition closing (w : str) : Prop := exists v, w = v ++ [c_rparen].
Definition opening (w : str) : Prop := exists lib m, w = lib ++ c_lparen :: m /\ lib <> [] /\ ~ In c_lparen lib /\ ~ closing w.
Definition nonempty (w : str) : bool := match w with [] => false | _ => true end.
Inductive grouped : list str -> list str -> Prop :=
| g_nil : grouped [] []
| g_plain w ws ns : ~ (opening w /\ Exists closing ws) -> grouped ws ns -> grouped (w :: ws) (w :: ns)
| g_group lib m ms z ws ns : lib <> [] -> ~ In c_lparen lib -> ~ closing (lib ++ c_lparen :: m) -> Forall (fun w => ~ closing w) ms ->
    grouped ws ns ->
    grouped ((lib ++ c_lparen :: m) :: ms ++ (z ++ [c_rparen]) :: ws)
            (map (fun x => lib ++ c_lparen :: x ++ [c_rparen]) (filter nonempty (m :: ms ++ [z])) ++ ns).
