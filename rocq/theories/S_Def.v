(** What a line that defines a variable means, written without the scanner. *)
From Verif Require Import Base S_Text M_Var S_Expand S_Eval.
Open Scope string_scope.
Open Scope list_scope.
Open Scope nat_scope.

(** The assignment operators. *)
Inductive operator : flavor -> string -> Prop :=
| op_recursive : operator f_recursive "="
| op_simple : operator f_simple ":="
| op_posix : operator f_simple "::="
| op_append : operator f_append "+="
| op_conditional : operator f_conditional "?="
| op_shell : operator f_shell "!=".

(** The text of a name: ordinary characters and whole references.  [tight]: an equals sign
    follows immediately, so that the name cannot end with a character that would make it an
    other operator. *)
Definition ordinary (c : ascii) : Prop :=
  isblank c = false /\ ~ In c (s2l "#$=:").
Inductive name_text (tight : Prop) : str -> Prop :=
| nt_nil : name_text tight []
| nt_char c n : ordinary c -> (tight -> n = [] -> ~ In c (s2l "+?!")) -> name_text tight n -> name_text tight (c :: n)
| nt_short d n : d <> c_lparen -> d <> c_lbrace -> name_text tight n -> name_text tight (c_dollar :: d :: n)
| nt_long op cl t n : brackets op cl -> nested op cl t -> name_text tight n ->
    name_text tight (c_dollar :: op :: t ++ cl :: n).

(** The line [line] defines: name [n], flavour [f], text [v]. *)
Definition defines (line n : str) (f : flavor) (v : str) : Prop :=
  exists lead sp op post, line = lead ++ n ++ sp ++ s2l op ++ post ++ v /\
    operator f op /\ all_space lead /\ all_space post /\
    (forall c t, v = c :: t -> isspace c = false) /\
    (forall c t, n = c :: t -> isspace c = false) /\
    (sp = [] \/ exists b sp', sp = b :: sp' /\ isblank b = true /\ all_space sp') /\
    name_text (sp = [] /\ op = "=") n.

(** ** The effect *)

Definition joined (old new : str) : str := match old with [] => new | _ => old ++ c_sp :: new end.

(** [assigned X sh old f v new]: what becomes of the value and flavour (recursive?) of a
    variable when [v] is assigned to it; [X] relates a text to its expansion, [sh] gives the
    output of a command. *)
Inductive assigned (X : str -> str -> Prop) (sh : str -> str) (old : option (str * bool)) :
  flavor -> str -> option (str * bool) -> Prop :=
| as_recursive v : assigned X sh old f_recursive v (Some (v, true))
| as_simple v w : X v w -> assigned X sh old f_simple v (Some (w, false))
| as_shell v w : X v w -> assigned X sh old f_shell v (Some (sh w, true))
| as_cond_new v : old = None -> assigned X sh old f_conditional v (Some (v, true))
| as_cond_old v : old <> None -> assigned X sh old f_conditional v old
| as_app_new v : old = None -> assigned X sh old f_append v (Some (v, true))
| as_app_rec v o : old = Some (o, true) -> v <> [] -> assigned X sh old f_append v (Some (joined o v, true))
| as_app_simple v w o : old = Some (o, false) -> X v w -> w <> [] ->
    assigned X sh old f_append v (Some (joined o w, false))
| as_app_rec_empty o : old = Some (o, true) -> assigned X sh old f_append [] old
| as_app_simple_empty v o : old = Some (o, false) -> X v [] -> assigned X sh old f_append v old.

(** Value and flavour of a variable, if there is one. *)
Definition view (x : option var) : option (str * bool) :=
  match x with Some v => Some (v_value v, v_recursive v) | None => None end.
