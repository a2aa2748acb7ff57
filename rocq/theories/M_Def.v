(** Variable definitions: src/variable.c, from the text of a definition to the variable. *)
From Verif Require Import Base M_Text M_Var M_Expand.
Open Scope nat_scope.

Definition c_hash : ascii := ascii_of_nat 35.
Definition c_bang : ascii := ascii_of_nat 33.
Definition c_quest : ascii := ascii_of_nat 63.

(** src/variable.c:1549-1560: past a reference, [k] closing characters being awaited ([k > 0]).
    Text skipped and text left. *)
Fixpoint skip_ref (op cl : ascii) (k : nat) (p : str) : str * str :=
  match p with
  | [] => ([], [])
  | x :: p' =>
      if (x =?c cl) && (k =? 1) then ([x], p')
      else
        let k := if x =?c cl then pred k else k in
        let k := if x =?c op then S k else k in
        let '(a, b) := skip_ref op cl k p' in (x :: a, b)
  end.

(** src/variable.c:1577-1629: an assignment operator whose first character [c] has been read;
    [p] is the text after it.  The flavour, and the text after the operator. *)
Definition assign_op (c : ascii) (p : str) : option (flavor * str) :=
  if c =?c c_eq then Some (f_recursive, p)
  else match p with
  | x :: p' =>
      if x =?c c_eq then
        if c =?c c_colon then Some (f_simple, p')
        else if c =?c c_plus then Some (f_append, p')
        else if c =?c c_quest then Some (f_conditional, p')
        else if c =?c c_bang then Some (f_shell, p')
        else None
      else if (c =?c c_colon) && (x =?c c_colon) then
        match p' with
        | y :: p'' => if y =?c c_eq then Some (f_simple, p'') else None
        | [] => None
        end
      else None
  | [] => None
  end.

(** src/variable.c:1513-1640 parse_variable_definition, the loop; [acc]: the name so far.  Name,
    flavour and value; [None]: not a definition.  [wspace] is not carried along: every
    iteration that sets it leaves the loop.  [n] bounds the iterations; each one reads a
    character. *)
Fixpoint parse_loop (n : nat) (acc p : str) : option (str * flavor * str) :=
  match n with
  | 0 => None
  | S n' =>
      match p with
      | [] => None
      | c :: p =>
          if c =?c c_hash then None
          else if c =?c c_dollar then
            match p with
            | [] => None
            | d :: p =>
                if (d =?c c_lparen) || (d =?c c_lbrace) then
                  let '(a, b) := skip_ref d (if d =?c c_lparen then c_rparen else c_rbrace) 1 p in
                  parse_loop n' (acc ++ c :: d :: a) b
                else parse_loop n' (acc ++ [c; d]) p
            end
          else if isblank c then
            match next_token p with
            | [] => None
            | d :: p =>
                match assign_op d p with
                | Some (f, v) => Some (acc, f, next_token v)
                | None => None
                end
            end
          else
            match assign_op c p with
            | Some (f, v) => Some (acc, f, next_token v)
            | None =>
                (* a colon which starts no operator; a colon in front of an equals sign does *)
                if c =?c c_colon then None else parse_loop n' (acc ++ [c]) p
            end
      end
  end.
Definition parse_variable_definition (p : str) : option (str * flavor * str) :=
  let p := next_token p in parse_loop (S (length p)) [] p.

Section Define.
  Variable ftab : str -> option fent.
  Variable fuel : nat.                  (* depth of expansion *)
  Variable env_overrides : bool.
  (** src/function.c shell_result. *)
  Variable shell_result : str -> str.

  (** [set] NULL or current_variable_set_list->set: a change of the last, or first, set. *)
  Fixpoint on_last (f : vset -> vset) (c : chain) : chain :=
    match c with
    | [] => []
    | [nd] => [with_set nd (f (n_set nd))]
    | nd :: c' => nd :: on_last f c'
    end.
  Definition on_first (f : vset -> vset) (c : chain) : chain :=
    match c with [] => [] | nd :: c' => with_set nd (f (n_set nd)) :: c' end.
  Definition first_set (c : chain) : vset := match c with [] => [] | nd :: _ => n_set nd end.

  Definition set_flags (v : var) (append conditional : bool) : var :=
    mkvar (v_value v) (v_origin v) (v_recursive v) append conditional (v_per_target v)
          (v_private v) (v_exp v) (v_exportable v).
  (** src/variable.c:1485-1492: define, then set the two flags of what comes back. *)
  Definition define_flagged (n value : str) (o : origin) (recursive append conditional : bool) (s : vset) : vset :=
    let '(s', v) := define_in_set env_overrides n [] value o recursive s in
    set_put n (set_flags v append conditional) s'.

  (** src/variable.c:1226-1497 do_variable_definition.  [c] is current_variable_set_list with
      all that follows; its last set is the global one.  Result: the chain afterwards.
      Not modelled: set_special_var (.RECIPEPREFIX, MAKEFLAGS). *)
  Definition do_variable_definition (c : chain) (st : xst) (n value : str) (o : origin) (f : flavor)
             (target_var : bool) : xres (xst * chain) :=
    let define st p recursive append conditional :=
      let g := define_flagged n p o recursive append conditional in
      XOk (st, if target_var then on_first g c else on_last g c) in
    match f with
    | f_simple => xbind (expand ftab true fuel c st value) (fun '(st, p) => define st p false false false)
    | f_shell => xbind (expand ftab true fuel c st value) (fun '(st, q) => define st (shell_result q) true false false)
    | f_conditional =>
        match lookup_variable n c with
        | Some _ => XOk (st, c)
        | None => define st value true false true
        end
    | f_recursive => define st value true false false
    | f_append | f_append_value =>
        let v := if target_var then set_find n (first_set c)
                 else match lookup_variable n c with Some (_, v) => Some v | None => None end in
        let append := target_var && match v with Some v => v_append v | None => true end in
        match v with
        | None => define st value true append false
        | Some v =>
            xbind (if v_recursive v then XOk (st, value)
                   else match f with
                        | f_append_value => XOk (st, value)
                        | _ => expand ftab true fuel c st value
                        end)
              (fun '(st, val) =>
                 match val with
                 | [] => XOk (st, c)
                 | _ =>
                     let p := match v_value v with [] => val | old => old ++ c_sp :: val end in
                     define st p (v_recursive v) append false
                 end)
        end
    end.

  (** src/variable.c:1648-1705 assign_variable_definition and try_variable_definition.
      [None]: the text is no definition. *)
  Definition try_variable_definition (c : chain) (st : xst) (line : str) (o : origin) (target_var : bool)
    : xres (option (xst * chain)) :=
    match parse_variable_definition line with
    | None => XOk None
    | Some (n, f, value) =>
        xbind (expand ftab true fuel c st n) (fun '(st, n) =>
          match n with
          | [] => XFail XFunc            (* empty variable name *)
          | _ => xbind (do_variable_definition c st n value o f target_var) (fun r => XOk (Some r))
          end)
    end.
End Define.
