(** The table of built-in functions: src/function.c:2172-2217. *)
From Verif Require Import Base M_Text M_Path M_Var M_Expand.
Open Scope string_scope.
Open Scope list_scope.
Open Scope nat_scope.

Section Table.
  Variables h1 h2 : str -> nat.                (* hash functions of $(filter) *)
  Variable qsort : list str -> list str.
  Variable behind : str.                       (* memory behind the argument of $(sort) *)
  Variable path_max : nat.
  Variable cwd : option str.                   (* starting_directory *)

  Definition of_res (r : res str) : option str := match r with Ok s => Some s | _ => None end.
  Definition f1 (f : str -> option str) : fkind := KPure (fun l => match l with [a] => f a | _ => None end).
  Definition f2 (f : str -> str -> option str) : fkind := KPure (fun l => match l with [a; b] => f a b | _ => None end).
  Definition f3 (f : str -> str -> str -> option str) : fkind :=
    KPure (fun l => match l with [a; b; c] => f a b c | _ => None end).

  (** [None]: wrong number of arguments reaches a function (impossible, the table's bounds are
      checked), a fatal error of the function, or undefined behaviour.  $(info) and $(warning)
      write to the terminal and give nothing; $(realpath), $(wildcard), $(shell), $(eval),
      $(file) and $(debugger) depend on or change the outside world. *)
  Definition functions : list (string * fent) :=
    [("abspath", mkfent 0 1 (f1 (fun a => of_res (func_abspath path_max cwd a))));
     ("addprefix", mkfent 2 2 (f2 func_addprefix));
     ("addsuffix", mkfent 2 2 (f2 func_addsuffix));
     ("basename", mkfent 0 1 (f1 func_basename));
     ("dir", mkfent 0 1 (f1 func_dir));
     ("notdir", mkfent 0 1 (f1 func_notdir));
     ("subst", mkfent 3 3 (f3 func_subst));
     ("suffix", mkfent 0 1 (f1 func_suffix));
     ("filter", mkfent 2 2 (f2 (func_filter h1 h2 true)));
     ("filter-out", mkfent 2 2 (f2 (func_filter h1 h2 false)));
     ("findstring", mkfent 2 2 (f2 (fun f a => Some (func_findstring f a))));
     ("firstword", mkfent 0 1 (f1 (fun a => Some (func_firstword a))));
     ("flavor", mkfent 0 1 KFlavor);
     ("join", mkfent 2 2 (f2 func_join));
     ("lastword", mkfent 0 1 (f1 func_lastword));
     ("patsubst", mkfent 3 3 (f3 func_patsubst));
     ("realpath", mkfent 0 1 KOther);
     ("shell", mkfent 0 1 KOther);
     ("sort", mkfent 0 1 (f1 (fun a => of_res (func_sort qsort (a ++ c_nul :: behind)))));
     ("strip", mkfent 0 1 (f1 func_strip));
     ("wildcard", mkfent 0 1 KOther);
     ("word", mkfent 2 2 (f2 (fun n a => of_res (func_word n a))));
     ("wordlist", mkfent 3 3 (f3 (fun n m a => of_res (func_wordlist n m a))));
     ("words", mkfent 0 1 (f1 func_words));
     ("origin", mkfent 0 1 KOrigin);
     ("foreach", mkfent 3 3 KForeach);
     ("call", mkfent 1 0 KCall);
     ("info", mkfent 0 1 (f1 (fun _ => Some [])));
     ("error", mkfent 0 1 (f1 (fun _ => None)));
     ("warning", mkfent 0 1 (f1 (fun _ => Some [])));
     ("if", mkfent 2 3 KIf);
     ("or", mkfent 1 0 KOr);
     ("and", mkfent 1 0 KAnd);
     ("value", mkfent 0 1 KValue);
     ("eval", mkfent 0 1 KOther);
     ("file", mkfent 1 2 KOther);
     ("debugger", mkfent 0 1 KOther)].

  Definition table (l : list (string * fent)) (n : str) : option fent :=
    match find (fun p => str_eqb (s2l (fst p)) n) l with Some p => Some (snd p) | None => None end.
  Definition gmake : str -> option fent := table functions.

  Definition is_call (e : fent) : bool := match f_kind e with KCall => true | _ => false end.
  Definition is_foreach (e : fent) : bool := match f_kind e with KForeach => true | _ => false end.
End Table.
