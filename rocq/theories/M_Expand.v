(** Expansion of variable references and function calls: src/expand.c and the dispatching part
    of src/function.c. *)
From Verif Require Import Base M_Text M_Var.
Open Scope nat_scope.

(** Why an expansion stops the program ([fatal]), or leaves the model. *)
Inductive xerr :=
| XUnterminated              (* unterminated variable reference *)
| XUntermCall                (* unterminated call to function *)
| XArgs                      (* insufficient number of arguments *)
| XSelf (id : nat) (n : str) (* Recursive variable references itself *)
| XFunc                      (* a function's own error: $(error), bad number, ... *)
| XUnmodelled.               (* eval, shell, file, debugger *)

Inductive xres (A : Type) := XOk (a : A) | XFail (e : xerr) | XFuel.
Arguments XOk {A} _.
Arguments XFail {A} _.
Arguments XFuel {A}.
Definition xbind {A B} (x : xres A) (f : A -> xres B) : xres B :=
  match x with XOk a => f a | XFail e => XFail e | XFuel => XFuel end.

(** Flags of the variables and func_call's static [max_args].  A variable is identified by its
    set and its name; [x_busy] lists those with [expanding] set, [x_count] those with a non-zero
    [exp_count]. *)
Record xst := mkxst { x_busy : list (nat * str); x_count : list (nat * str * nat); x_max : nat }.
Definition key_eqb (i : nat) (n : str) (k : nat * str) : bool := (fst k =? i) && str_eqb n (snd k).
Definition busy (st : xst) (i : nat) (n : str) : bool := existsb (key_eqb i n) (x_busy st).
Definition count (st : xst) (i : nat) (n : str) : nat :=
  match find (fun k => key_eqb i n (fst k)) (x_count st) with Some k => snd k | None => 0 end.
Definition set_busy (st : xst) (i : nat) (n : str) (b : bool) : xst :=
  let l := filter (fun k => negb (key_eqb i n k)) (x_busy st) in
  mkxst (if b then (i, n) :: l else l) (x_count st) (x_max st).
Definition set_count (st : xst) (i : nat) (n : str) (k : nat) : xst :=
  let l := filter (fun k => negb (key_eqb i n (fst k))) (x_count st) in
  mkxst (x_busy st) (match k with 0 => l | _ => (i, n, k) :: l end) (x_max st).
Definition set_max (st : xst) k := mkxst (x_busy st) (x_count st) k.

(** src/function.c:30-48 struct function_table_entry.  Kinds: functions that only depend on
    their expanded arguments ([KPure]; [None] is a fatal error), and those that work on
    variables or expand their arguments themselves. *)
Inductive fkind :=
| KPure (f : list str -> option str)
| KForeach | KIf | KOr | KAnd | KCall | KValue | KOrigin | KFlavor
| KOther.                    (* eval, shell, file, debugger *)
Record fent := mkfent { f_min : nat; f_max : nat; f_kind : fkind }.
(** EXP? column of src/function.c:2173-2213. *)
Definition f_expand (e : fent) : bool :=
  match f_kind e with KForeach | KIf | KOr | KAnd => false | _ => true end.

(** MAP_USERFUNC, src/misc.c:779,787-788,804-805. *)
Definition is_userfunc (c : ascii) : bool :=
  is_digit c || is_alpha_ c || (c =?c c_dot) || (c =?c c_minus).

Fixpoint span (f : ascii -> bool) (s : str) : str * str :=
  match s with
  | c :: s' => if f c then let '(a, b) := span f s' in (c :: a, b) else ([], s)
  | [] => ([], [])
  end.

(** strchr: text in front of the first [c], and behind it. *)
Fixpoint cut_at (c : ascii) (s : str) : option (str * str) :=
  match s with
  | [] => None
  | x :: s' => if x =?c c then Some ([], s')
               else match cut_at c s' with Some (a, b) => Some (x :: a, b) | None => None end
  end.

(** src/expand.c:256-264 and src/function.c:2298-2306: the matching closing character, counting
    nested ones of the same kind; [k] is COUNT.  Text in front of it and behind it. *)
Fixpoint match_close (op cl : ascii) (k : nat) (s : str) : option (str * str) :=
  match s with
  | [] => None
  | x :: s' =>
      if x =?c op then
        match match_close op cl (S k) s' with Some (a, b) => Some (x :: a, b) | None => None end
      else if x =?c cl then
        match k with
        | 0 => Some ([], s')
        | S k' => match match_close op cl k' s' with Some (a, b) => Some (x :: a, b) | None => None end
        end
      else match match_close op cl k s' with Some (a, b) => Some (x :: a, b) | None => None end
  end.

(** src/function.c:324-350 find_next_argument: the argument and the text after the comma. *)
Fixpoint next_argument (op cl : ascii) (k : nat) (s : str) : option (str * str) :=
  match s with
  | [] => None
  | x :: s' =>
      if x =?c op then
        match next_argument op cl (S k) s' with Some (a, b) => Some (x :: a, b) | None => None end
      else if x =?c cl then
        match k with
        | 0 => None
        | S k' => match next_argument op cl k' s' with Some (a, b) => Some (x :: a, b) | None => None end
        end
      else if (x =?c c_comma) && (k =? 0) then Some ([], s')
      else match next_argument op cl k s' with Some (a, b) => Some (x :: a, b) | None => None end
  end.

(** src/function.c:2329-2341 and 2355-2366: chop into arguments, at most [max] (0: any number);
    [n] is NARGS so far. *)
Fixpoint split_args (op cl : ascii) (max : nat) (fuel n : nat) (s : str) : list str :=
  match fuel with
  | 0 => [s]
  | S fuel' =>
      if S n =? max then [s]
      else match next_argument op cl 0 s with
           | None => [s]
           | Some (a, r) => a :: split_args op cl max fuel' (S n) r
           end
  end.

Section Expand.
  (** The function table ([define_new_function] may extend it). *)
  Variable ftab : str -> option fent.
  (** Is self-reference checked?  Always in the code; the unchecked variant is used to state
      what the check means. *)
  Variable guard : bool.

  (** src/function.c:269-285 lookup_function.  The length is kept in an unsigned char. *)
  Definition lookup_function (s : str) : option (nat * fent) :=
    let '(name, r) := span is_userfunc s in
    match name with
    | [] => None
    | _ =>
        let ok := match r with [] => true | c :: _ => isspace c end in
        if ok then
          let len := length name mod 256 in
          match ftab (firstn len s) with Some e => Some (len, e) | None => None end
        else None
    end.

  Section Rec.
  (** The nested variable_expand_string, in the given scopes. *)
  Variable rec : chain -> xst -> str -> xres (xst * str).

  (** src/expand.c:503-543 variable_append. *)
  Fixpoint variable_append (c : chain) (st : xst) (n : str) (local : bool) (w : chain) : xres (xst * str) :=
    match w with
    | [] => XOk (st, [])
    | nd :: w' =>
        let nextlocal := local && negb (n_parent nd) in
        match set_find n (n_set nd) with
        | None => variable_append c st n nextlocal w'
        | Some v =>
            if negb local && v_private v then variable_append c st n nextlocal w'
            else
              xbind (if v_append v then variable_append c st n nextlocal w' else XOk (st, []))
                (fun '(st, buf) =>
                   let buf := match buf with [] => [] | _ => buf ++ [c_sp] end in
                   if v_recursive v
                   then xbind (rec c st (v_value v)) (fun '(st, s) => XOk (st, buf ++ s))
                   else XOk (st, buf ++ v_value v))
        end
    end.

  (** src/expand.c:95-151 recursively_expand_for_file, with FILE 0. *)
  Definition recursively_expand (c : chain) (st : xst) (id : nat) (n : str) (v : var) : xres (xst * str) :=
    let body st :=
      if v_append v then variable_append c st n true c else rec c st (v_value v) in
    if guard then
      match (if busy st id n then
               match count st id n with
               | 0 => None
               | S k => Some (set_count st id n k)
               end
             else Some st) with
      | None => XFail (XSelf id n)
      | Some st =>
          xbind (body (set_busy st id n true))
                (fun '(st, s) => XOk (set_busy st id n false, s))
      end
    else body st.

  (** src/expand.c:159-184 reference_variable. *)
  Definition reference_variable (c : chain) (st : xst) (n : str) : xres (xst * str) :=
    match lookup_variable n c with
    | None => XOk (st, [])
    | Some (id, v) =>
        match v_value v, v_append v with
        | [], false => XOk (st, [])
        | _, _ => if v_recursive v then recursively_expand c st id n v else XOk (st, v_value v)
        end
    end.

  (** src/expand.c:279-373: a reference $(NAME), $(NAME:A=B). *)
  Definition full_reference (c : chain) (st : xst) (t : str) : xres (xst * str) :=
    match cut_at c_colon t with
    | Some (n, sub) =>
        match cut_at c_eq sub with
        | Some (a, b) =>
            match lookup_variable n c with
            | None => XOk (st, [])
            | Some (id, v) =>
                match v_value v with
                | [] => XOk (st, [])
                | _ =>
                    xbind (if v_recursive v then recursively_expand c st id n v else XOk (st, v_value v))
                      (fun '(st, value) =>
                         match subst_ref value a b with
                         | Some s => XOk (st, s)
                         | None => XFuel
                         end)
                end
            end
        | None => reference_variable c st t
        end
    | None => reference_variable c st t
    end.

  (** Expansion of the arguments one after the other, src/function.c:2339. *)
  Fixpoint expand_args (c : chain) (st : xst) (l : list str) : xres (xst * list str) :=
    match l with
    | [] => XOk (st, [])
    | a :: l' =>
        xbind (rec c st a) (fun '(st, x) =>
          xbind (expand_args c st l') (fun '(st, xs) => XOk (st, x :: xs)))
    end.

  (** A scope pushed for a function holds simple variables only; their flags are never looked
      at, so it needs no identity of its own. *)
  Definition pushed (s : vset) (c : chain) : chain := mknode 0 s false :: c.
  Definition simple_var (value : str) : var :=
    mkvar value o_automatic false false false false false v_default false.

  (** src/function.c:813-836: the loop of func_foreach over the words. *)
  Fixpoint foreach_loop (c : chain) (vn body : str) (st : xst) (ws : list str) : xres (xst * str) :=
    match ws with
    | [] => XOk (st, [])
    | w :: ws' =>
        xbind (rec (pushed [(vn, simple_var w)] c) st body) (fun '(st, s) =>
          xbind (foreach_loop c vn body st ws') (fun '(st, s') =>
            XOk (st, s ++ match ws' with [] => [] | _ => c_sp :: s' end)))
    end.

  (** src/function.c:1218-1254 func_or. *)
  Fixpoint func_or (c : chain) (st : xst) (l : list str) : xres (xst * str) :=
    match l with
    | [] => XOk (st, [])
    | a :: l' =>
        match strip_whitespace a with
        | [] => func_or c st l'
        | a' => xbind (rec c st a') (fun '(st, s) =>
                  match s with [] => func_or c st l' | _ => XOk (st, s) end)
        end
    end.

  (** src/function.c:1268-1310 func_and. *)
  Fixpoint func_and (c : chain) (st : xst) (l : list str) : xres (xst * str) :=
    match l with
    | [] => XFail XArgs          (* never called without arguments *)
    | a :: l' =>
        match strip_whitespace a with
        | [] => XOk (st, [])
        | a' => xbind (rec c st a') (fun '(st, s) =>
                  match s, l' with
                  | [], _ => XOk (st, [])
                  | _, [] => XOk (st, s)
                  | _, _ => func_and c st l'
                  end)
        end
    end.

  (** src/function.c:1165-1202 func_if. *)
  Definition func_if (c : chain) (st : xst) (l : list str) : xres (xst * str) :=
    match l with
    | [] => XFail XArgs
    | cond :: l' =>
        xbind (match strip_whitespace cond with
               | [] => XOk (st, false)
               | a => xbind (rec c st a) (fun '(st, s) => XOk (st, match s with [] => false | _ => true end))
               end)
          (fun '(st, b) =>
             match nth_error l' (if b then 0 else 1) with
             | Some a => rec c st a
             | None => XOk (st, [])
             end)
    end.

  (** src/function.c:794-845 func_foreach. *)
  Definition func_foreach (c : chain) (st : xst) (l : list str) : xres (xst * str) :=
    match l with
    | a :: b :: body :: _ =>
        xbind (rec c st a) (fun '(st, vn) =>
          xbind (rec c st b) (fun '(st, lst) =>
            match each_token (fun ws w => ws ++ [w]) [] lst with
            | None => XFuel
            | Some ws => foreach_loop c (fst (end_of_token (next_token vn))) body st ws
            end))
    | _ => XFail XArgs
    end.

  (** src/function.c:457-495 func_origin; [None] is abort(). *)
  Definition origin_name (o : origin) : option str :=
    match o with
    | o_default => Some (s2l "default") | o_env => Some (s2l "environment") | o_file => Some (s2l "file")
    | o_env_override => Some (s2l "environment override") | o_command => Some (s2l "command line")
    | o_override => Some (s2l "override") | o_automatic => Some (s2l "automatic")
    | o_debugger | o_invalid => None
    end.

  Definition exp_count_max : nat := 2 ^ 15 - 1.

  (** src/function.c:2224-2260 expand_builtin_function and 2388-2478 func_call.  [depth] bounds
      $(call call,...) chains, where each step drops an argument. *)
  Fixpoint builtin (depth : nat) (c : chain) (st : xst) (e : fent) (l : list str) : xres (xst * str) :=
    if length l <? f_min e then XFail XArgs
    else match l with
    | [] => XOk (st, [])
    | a :: args =>
        match f_kind e with
        | KPure f => match f l with Some s => XOk (st, s) | None => XFail XFunc end
        | KForeach => func_foreach c st l
        | KIf => func_if c st l
        | KOr => func_or c st l
        | KAnd => func_and c st l
        | KValue => XOk (st, match lookup_variable a c with Some (_, v) => v_value v | None => [] end)
        | KOrigin =>
            match lookup_variable a c with
            | None => XOk (st, s2l "undefined")
            | Some (_, v) => match origin_name (v_origin v) with Some s => XOk (st, s) | None => XFail XFunc end
            end
        | KFlavor =>
            XOk (st, match lookup_variable a c with
                     | None => s2l "undefined"
                     | Some (_, v) => if v_recursive v then s2l "recursive" else s2l "simple"
                     end)
        | KOther => XFail XUnmodelled
        | KCall =>
            let fname := fst (end_of_token (next_token a)) in
            match fname with
            | [] => XOk (st, [])
            | _ =>
                match lookup_function fname with
                | Some (_, e') =>
                    match depth with
                    | 0 => XFuel
                    | S d => builtin d c st e' args
                    end
                | None =>
                    match lookup_variable fname c with
                    | None => XOk (st, [])
                    | Some (id, v) =>
                        match v_value v with
                        | [] => XOk (st, [])
                        | _ =>
                            let n := Nat.max (length l) (x_max st) in
                            (* argv[0] has been cut in place to the bare name, if it started with blanks
                               the variable 0 still shows them *)
                            let arg0 := firstn (length a - length (next_token a)) a ++ fname in
                            let argv := arg0 :: args in
                            let set := map (fun i => (show_nat i, simple_var (nth i argv []))) (seq 0 n) in
                            let saved := x_max st in
                            let st1 := set_max (set_count st id fname exp_count_max) n in
                            xbind (rec (pushed set c) st1 (c_dollar :: c_lparen :: fname ++ [c_rparen]))
                              (fun '(st, s) => XOk (set_count (set_max st saved) id fname 0, s))
                        end
                    end
                end
            end
        end
    end.

  (** src/function.c:2267-2381 handle_function, from the opening character on. *)
  Definition run_function (c : chain) (st : xst) (op cl : ascii) (e : fent) (text : str) : xres (xst * str) :=
    let args := split_args op cl (f_max e) (length text) 0 text in
    if f_expand e
    then xbind (expand_args c st args) (fun '(st, xs) => builtin (length xs) c st e xs)
    else builtin (length args) c st e args.

  (** src/expand.c:193-407 variable_expand_string: the loop over the text. *)
  Fixpoint scan (n : nat) (c : chain) (st : xst) (t : str) (out : str) : xres (xst * str) :=
    match n with
    | 0 => XFuel
    | S n' =>
        match cut_at c_dollar t with
        | None => XOk (st, out ++ t)
        | Some (lit, r) =>
            let out := out ++ lit in
            match r with
            | [] => XOk (st, out ++ [c_dollar])
            | x :: r' =>
                if x =?c c_dollar then scan n' c st r' (out ++ [c_dollar])
                else if (x =?c c_lparen) || (x =?c c_lbrace) then
                  let cl := if x =?c c_lparen then c_rparen else c_rbrace in
                  match lookup_function r' with
                  | Some (len, e) =>
                      match match_close x cl 0 (next_token (skipn len r')) with
                      | None => XFail XUntermCall
                      | Some (text, rest) =>
                          xbind (run_function c st x cl e text)
                                (fun '(st, s) => scan n' c st rest (out ++ s))
                      end
                  | None =>
                      match cut_at cl r' with
                      | None => XFail XUnterminated
                      | Some (raw, after) =>
                          match cut_at c_dollar raw with
                          | None =>
                              xbind (full_reference c st raw) (fun '(st, s) => scan n' c st after (out ++ s))
                          | Some _ =>
                              match match_close x cl 0 r' with
                              | Some (inner, rest) =>
                                  xbind (rec c st inner) (fun '(st, t) =>
                                  xbind (full_reference c st t) (fun '(st, s) => scan n' c st rest (out ++ s)))
                              | None =>
                                  (* unbalanced: P stands at the end of the text *)
                                  xbind (full_reference c st raw) (fun '(st, s) => XOk (st, out ++ s))
                              end
                          end
                      end
                  end
                else
                  xbind (reference_variable c st [x]) (fun '(st, s) => scan n' c st r' (out ++ s))
            end
        end
    end.
  End Rec.

  (** variable_expand_string and all that it calls, to a nesting depth of [fuel]. *)
  Fixpoint expand (fuel : nat) (c : chain) (st : xst) (t : str) : xres (xst * str) :=
    match fuel with
    | 0 => XFuel
    | S f => scan (expand f) (S (length t)) c st t []
    end.
End Expand.

Definition st0 : xst := mkxst [] [] 0.
