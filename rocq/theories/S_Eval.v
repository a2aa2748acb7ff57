(** What a makefile text means: rules for the value of a text, written without the scanner.
    (src/expand.c and src/function.c are compared with these in P_Eval.) *)
From Verif Require Import Base S_Text M_Var M_Text M_Expand S_Expand.
Open Scope string_scope.
Open Scope list_scope.
Open Scope nat_scope.

(** The words of the manual for the origin of a variable. *)
Definition origin_word (o : origin) : string :=
  match o with
  | o_default => "default" | o_env => "environment" | o_env_override => "environment override" | o_file => "file"
  | o_command => "command line" | o_override => "override" | o_automatic => "automatic" | _ => ""
  end.

Definition brackets (op cl : ascii) : Prop := (op = c_lparen /\ cl = c_rparen) \/ (op = c_lbrace /\ cl = c_rbrace).

(** [s] is [a] without the white space around it. *)
Definition trim_to (a s : str) : Prop :=
  exists pre post, a = pre ++ s ++ post /\ all_space pre /\ all_space post /\
    (forall c t, s = c :: t -> isspace c = false) /\ (forall c t, s = t ++ [c] -> isspace c = false).

(** A name that can be written between the brackets as it is. *)
Definition plain_name (cl : ascii) (n : str) : Prop :=
  no_space n /\ ~ In c_dollar n /\ ~ In cl n /\ ~ In c_colon n.

(** The name in the call of a function. *)
Definition fun_name (n : str) : Prop :=
  n <> [] /\ (forall x, In x n -> is_userfunc x = true) /\ length n < 256.

(** The text between the brackets, after the name: arguments separated by commas. *)
Definition arguments (op cl : ascii) (max : nat) (args : list str) : Prop :=
  args <> [] /\ (forall a, In a args -> one_arg op cl a) /\ (max = 0 \/ length args <= max) /\
  (forall x l, commas args = x :: l -> isspace x = false).

(** A scope with one variable of the given plain value for each name. *)
Definition scope_of (l : list (str * str)) : node :=
  mknode 0 (map (fun p => (fst p, mkvar (snd p) o_automatic false false false false false v_default false)) l) false.

Section Eval.
  Variable ftab : str -> option fent.

  (** [ev m c t r]: in the scopes [c] the text [t] has the value [r].  [m] is the largest number
      of arguments of the user-defined functions being evaluated. *)
  Inductive ev : nat -> chain -> str -> str -> Prop :=
  | ev_nil m c : ev m c [] []
  | ev_text m c a t r : ~ In c_dollar a -> ev m c t r -> ev m c (a ++ t) (a ++ r)
  | ev_dollar m c t r : ev m c t r -> ev m c (c_dollar :: c_dollar :: t) (c_dollar :: r)
  | ev_last m c : ev m c [c_dollar] [c_dollar]
  | ev_char m c x v t r : x <> c_dollar -> x <> c_lparen -> x <> c_lbrace ->
      eref m c [x] v -> ev m c t r ->
      ev m c (c_dollar :: x :: t) (v ++ r)
  | ev_ref m c op cl n v t r : brackets op cl -> plain_name cl n ->
      eref m c n v -> ev m c t r ->
      ev m c (c_dollar :: op :: n ++ cl :: t) (v ++ r)
  | ev_computed m c op cl pre post n v t r : brackets op cl ->
      nested op cl (pre ++ c_dollar :: post) -> ~ In cl pre -> no_space pre ->
      ev m c (pre ++ c_dollar :: post) n -> ~ In c_colon n -> eref m c n v -> ev m c t r ->
      ev m c (c_dollar :: op :: (pre ++ c_dollar :: post) ++ cl :: t) (v ++ r)
  | ev_subst m c op cl n a b v u t r : brackets op cl -> plain_name cl n ->
      ~ In c_dollar (a ++ b) -> ~ In cl (a ++ b) -> ~ In c_eq a ->
      evar m c n v -> ~ In c_percent a -> func_patsubst (c_percent :: a) (c_percent :: b) v = Some u ->
      ev m c t r ->
      ev m c (c_dollar :: op :: (n ++ c_colon :: a ++ c_eq :: b) ++ cl :: t) (u ++ r)
  | ev_call m c op cl name e args v t r : brackets op cl -> fun_name name -> ftab name = Some e ->
      arguments op cl (f_max e) args -> f_min e <= length args ->
      efun m c e args v -> ev m c t r ->
      ev m c (c_dollar :: op :: name ++ c_sp :: commas args ++ cl :: t) (v ++ r)
  (** What a reference to a variable gives: its value, and for one that was appended to in an
      inner scope the values of the outer scopes in front of its own text. *)
  with eref : nat -> chain -> str -> str -> Prop :=
  | er_var m c n r : evar m c n r -> eref m c n r
  | er_append m c n id v r : lookup_variable n c = Some (id, v) -> v_append v = true -> v_recursive v = true ->
      eapp m c n true c r -> eref m c n r
  (** [eapp m c n local w r]: the value [n] has from the scopes [w] on; [local] until a step to
      a parent target.  All texts are expanded in the scopes [c]. *)
  with eapp : nat -> chain -> str -> bool -> chain -> str -> Prop :=
  | ea_nil m c n local : eapp m c n local [] []
  | ea_skip m c n local nd w r :
      (forall v, set_find n (n_set nd) = Some v -> local = false /\ v_private v = true) ->
      eapp m c n (local && negb (n_parent nd)) w r -> eapp m c n local (nd :: w) r
  | ea_base m c n local nd w v r : set_find n (n_set nd) = Some v -> (v_private v = true -> local = true) ->
      v_append v = false -> etext m c v r -> eapp m c n local (nd :: w) r
  | ea_more m c n local nd w v outer r : set_find n (n_set nd) = Some v -> (v_private v = true -> local = true) ->
      v_append v = true -> eapp m c n (local && negb (n_parent nd)) w outer -> etext m c v r ->
      eapp m c n local (nd :: w) (match outer with [] => r | _ => outer ++ c_sp :: r end)
  (** The text of a variable: expanded if recursive. *)
  with etext : nat -> chain -> var -> str -> Prop :=
  | et_rec m c v r : v_recursive v = true -> ev m c (v_value v) r -> etext m c v r
  | et_simple m c v : v_recursive v = false -> etext m c v (v_value v)
  (** The value of a variable. *)
  with evar : nat -> chain -> str -> str -> Prop :=
  | evar_none m c n : lookup_variable n c = None -> evar m c n []
  | evar_simple m c n id v : lookup_variable n c = Some (id, v) -> v_append v = false -> v_recursive v = false ->
      evar m c n (v_value v)
  | evar_rec m c n id v r : lookup_variable n c = Some (id, v) -> v_append v = false -> v_recursive v = true ->
      ev m c (v_value v) r -> evar m c n r
  (** The result of a function. *)
  with efun : nat -> chain -> fent -> list str -> str -> Prop :=
  | ef_pure m c e f args xs r : f_kind e = KPure f -> evs m c args xs -> f xs = Some r -> efun m c e args r
  | ef_if m c e cond cond' s th rest r : f_kind e = KIf -> length rest <= 1 -> trim_to cond cond' -> ev m c cond' s ->
      ev m c (match s with [] => hd [] rest | _ => th end) r -> efun m c e (cond :: th :: rest) r
  | ef_or m c e args r : f_kind e = KOr -> eor m c args r -> efun m c e args r
  | ef_and m c e args r : f_kind e = KAnd -> eand m c args r -> efun m c e args r
  | ef_foreach m c e v n l ws body rs : f_kind e = KForeach -> ev m c v n -> ev m c l ws ->
      eeach m c (hd [] (words n)) body (words ws) rs -> efun m c e [v; l; body] (unwords rs)
  | ef_value m c e a n : f_kind e = KValue -> ev m c a n ->
      efun m c e [a] (match lookup_variable n c with Some (_, v) => v_value v | None => [] end)
  | ef_origin m c e a n : f_kind e = KOrigin -> ev m c a n ->
      (forall id v, lookup_variable n c = Some (id, v) -> origin_word (v_origin v) <> "") ->
      efun m c e [a] (s2l (match lookup_variable n c with Some (_, v) => origin_word (v_origin v) | None => "undefined" end))
  | ef_flavor m c e a n : f_kind e = KFlavor -> ev m c a n ->
      efun m c e [a] (s2l (match lookup_variable n c with
                           | Some (_, v) => if v_recursive v then "recursive" else "simple"
                           | None => "undefined" end))
  | ef_call0 m c e args f xs : f_kind e = KCall -> evs m c args (f :: xs) ->
      plain_name c_rparen f -> f <> [] -> length f < 256 -> ftab f = None -> lookup_variable f c = None ->
      efun m c e args []
  (** A user-defined function: its value, with the arguments as $(1), $(2), ... *)
  | ef_call m c e args f xs r : f_kind e = KCall -> evs m c args (f :: xs) ->
      plain_name c_rparen f -> f <> [] -> length f < 256 -> ftab f = None ->
      (exists id v, lookup_variable f c = Some (id, v) /\ v_value v <> []) ->
      evar (Nat.max (S (length xs)) m)
           (scope_of (map (fun i => (show_nat i, nth i (f :: xs) [])) (seq 0 (Nat.max (S (length xs)) m))) :: c) f r ->
      efun m c e args r
  with evs : nat -> chain -> list str -> list str -> Prop :=
  | evs_nil m c : evs m c [] []
  | evs_cons m c a l x xs : ev m c a x -> evs m c l xs -> evs m c (a :: l) (x :: xs)
  (** The first argument with a non-empty value. *)
  with eor : nat -> chain -> list str -> str -> Prop :=
  | eor_nil m c : eor m c [] []
  | eor_empty m c a a' l r : trim_to a a' -> ev m c a' [] -> eor m c l r -> eor m c (a :: l) r
  | eor_found m c a a' l r : trim_to a a' -> ev m c a' r -> r <> [] -> eor m c (a :: l) r
  (** The last argument, if none is empty. *)
  with eand : nat -> chain -> list str -> str -> Prop :=
  | eand_last m c a a' r : trim_to a a' -> ev m c a' r -> eand m c [a] r
  | eand_empty m c a a' l : trim_to a a' -> ev m c a' [] -> eand m c (a :: l) []
  | eand_more m c a a' l s r : trim_to a a' -> ev m c a' s -> s <> [] -> l <> [] -> eand m c l r -> eand m c (a :: l) r
  (** The body once for each word. *)
  with eeach : nat -> chain -> str -> str -> list str -> list str -> Prop :=
  | ee_nil m c n body : eeach m c n body [] []
  | ee_cons m c n body w ws r rs : ev m (scope_of [(n, w)] :: c) body r -> eeach m c n body ws rs ->
      eeach m c n body (w :: ws) (r :: rs).
End Eval.
