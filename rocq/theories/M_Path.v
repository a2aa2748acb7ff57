(** $(abspath): src/function.c:1864-1965 and 2121-2154 (POSIX build: no drive letters, the
    only separator is the slash, root_len = ROOT_LEN = 1). *)
From Verif Require Import Base M_Text.
Open Scope nat_scope.

Section Abspath.
  Variable limit : nat.               (* GET_PATH_MAX, the size of apath *)
  Variable starting_directory : option str.   (* [None] is NULL *)

  (** [while (STOP_SET ( *start, MAP_DIRSEP)) ++start;] *)
  Fixpoint skip_sep (s : str) : str :=
    match s with c :: s' => if is_dirsep c then skip_sep s' else s | [] => [] end.

  (** src/function.c:1935: component and the text from its end on. *)
  Fixpoint span_comp (s : str) : str * str :=
    match s with
    | [] => ([], [])
    | c :: s' => if is_dirsep c then ([], s)
                 else let (w, r) := span_comp s' in (c :: w, r)
    end.

  (** [! STOP_SET (dest[-1], MAP_DIRSEP); --dest]; the text written so far is kept in
      reverse, so its head is dest[-1]; reading in front of the buffer is [None]. *)
  Fixpoint drop_to_sep (rd : str) : option str :=
    match rd with
    | [] => None
    | c :: rd' => if is_dirsep c then Some rd else drop_to_sep rd'
    end.

  (** src/function.c:1958-1964. *)
  Definition abs_finish (rd : str) : res (option str) :=
    let rd := if (1 <? length rd) && is_dirsep (hd c_nul rd) then tl rd else rd in
    if length rd <? limit then Ok (Some (rev rd)) else UB.

  (** src/function.c:1926-1956: the component loop. *)
  Fixpoint abs_loop (fuel : nat) (rd s : str) : res (option str) :=
    match fuel with
    | O => Loops
    | S k =>
        match s with
        | [] => abs_finish rd
        | _ =>
            let (w, r) := span_comp (skip_sep s) in
            match w with
            | [] => abs_finish rd
            | _ =>
                if str_eqb w [c_dot] then abs_loop k rd r
                else if str_eqb w [c_dot; c_dot] then
                  if 1 <? length rd then
                    match drop_to_sep (tl rd) with
                    | None => UB
                    | Some rd' => abs_loop k rd' r
                    end
                  else abs_loop k rd r
                else
                  match rd with
                  | [] => UB                               (* dest[-1] *)
                  | c :: _ =>
                      let rd1 := if is_dirsep c then rd else c_slash :: rd in
                      if limit <? length rd1 then UB       (* the slash does not fit *)
                      else if limit <=? length rd1 + length w then Ok None
                      else abs_loop k (rev w ++ rd1) r
                  end
            end
        end
    end.

  Definition is_absolute (name : str) : bool :=
    match name with c :: _ => c =?c c_slash | [] => false end.

  (** src/function.c:1864-1924. *)
  Definition abspath (name : str) : res (option str) :=
    match name with
    | [] => Ok None
    | _ =>
        if is_absolute name then abs_loop (S (length name)) [c_slash] (tl name)
        else match starting_directory with
             | None => Ok None
             | Some d => if length d <? limit then abs_loop (S (length name)) (rev d) name
                         else UB                            (* strcpy *)
             end
    end.

  (** src/function.c:2121-2154 func_abspath. *)
  Definition abspath_word (o : res obuf) (w : str) : res obuf :=
    match o with
    | Ok o =>
        if length w <? limit then
          match abspath w with
          | Ok (Some p) => Ok (put_sp (put o p))
          | Ok None => Ok o
          | Fatal => Fatal | UB => UB | Loops => Loops
          end
        else Ok o
    | x => x
    end.
  Definition func_abspath (a : str) : res str :=
    match each_token abspath_word (Ok o0) a with
    | None => Loops
    | Some (Ok o) => Ok (kill_last o)
    | Some Fatal => Fatal | Some UB => UB | Some Loops => Loops
    end.
End Abspath.
