(** Reading lines of makefiles: src/read.c readstring and readline. *)
From Verif Require Import Base.

(** The C library's fgets for a buffer of [n]+1 bytes: what is read and what remains. *)
Fixpoint fgets (n : nat) (t : str) : str * str :=
  match n, t with
  | 0, _ => ([], t)
  | _, [] => ([], [])
  | S n', c :: t' => if c =?c c_nl then ([c], t') else let '(a, b) := fgets n' t' in (c :: a, b)
  end.
(** What strlen sees. *)
Fixpoint upto_nul (t : str) : str :=
  match t with
  | [] => []
  | c :: t' => if c =?c c_nul then [] else c :: upto_nul t'
  end.
(** The parity of the backslashes at the end; the text is given backwards. *)
Fixpoint odd_bs (r : str) : bool :=
  match r with
  | c :: r' => if c =?c c_bslash then negb (odd_bs r') else false
  | [] => false
  end.

(** [Line l n t size]: the line, how many newlines were read, what remains, the size of the buffer. *)
Inductive got := Line (l : str) (n : nat) (t : str) (size : nat) | Eof | NoFuel.
(** src/read.c:2632-2733 readline on a file.  [acc]: the text between START and P.  The rest of a line
    that begins with a NUL is not modelled after the newline put in its place (it is overwritten, unless
    the file ends there and a backslash stood before). *)
Fixpoint readline (fuel size : nat) (acc : str) (nlines : nat) (t : str) : got :=
  match fuel with
  | 0 => NoFuel
  | S fuel' =>
      match t with
      | [] => if nlines =? 0 then match acc with [] => Eof | _ => Line acc 1 [] size end else Line acc nlines [] size
      | _ =>
          let '(chunk, t) := fgets (size - length acc - 1) t in
          let chunk := match upto_nul chunk with [] => [c_nl] | x => x end in
          let acc := acc ++ chunk in
          match rev acc with
          | c :: back =>
              if c =?c c_nl then
                let back := match back with d :: back' => if d =?c c_cr then back' else back | [] => back end in
                if odd_bs back then
                  let acc := rev (c_nl :: back) in
                  readline fuel' (if 80 <=? size - length acc then size else 2 * size) acc (S nlines) t
                else Line (rev back) (S nlines) t size
              else readline fuel' (2 * size) acc nlines t
          | [] => NoFuel
          end
      end
  end.
(** src/read.c:328, 431, 659-675: the lines of a file with their numbers. *)
Fixpoint read_file (fuel size lineno : nat) (t : str) : option (list (nat * str)) :=
  match fuel with
  | 0 => None
  | S fuel' =>
      match readline (S (length t)) size [] 0 t with
      | Line l n t' size' => match read_file fuel' size' (lineno + n) t' with Some ls => Some ((lineno, l) :: ls) | None => None end
      | Eof => Some []
      | NoFuel => None
      end
  end.

Fixpoint strchr_nl (t : str) : str * option str :=
  match t with
  | [] => ([], None)
  | c :: t' => if c =?c c_nl then ([], Some t') else let '(a, b) := strchr_nl t' in (c :: a, b)
  end.
(** src/read.c:2589-2630 readstring: [acc] is what lies before BOL in the line. *)
Fixpoint readstring (fuel : nat) (acc t : str) : got :=
  match fuel with
  | 0 => NoFuel
  | S fuel' =>
      match strchr_nl t with
      | (a, None) => Line (acc ++ a) 0 [] 0
      | (a, Some t') => if odd_bs (rev a) then readstring fuel' (acc ++ a ++ [c_nl]) t' else Line (acc ++ a) 0 t' 0
      end
  end.
(** src/read.c:452-490 eval_buffer: the lines of a string. *)
Fixpoint read_string (fuel : nat) (t : str) : option (list str) :=
  match fuel with
  | 0 => None
  | S fuel' =>
      match t with
      | [] => Some []
      | _ =>
          match readstring (S (length t)) [] t with
          | Line l _ t' _ => match read_string fuel' t' with Some ls => Some (l :: ls) | None => None end
          | Eof => Some []
          | NoFuel => None
          end
      end
  end.
