(** Archives: src/arscan.c ar_scan, ar_name_equal, ar_member_touch; src/ar.c ar_parse_name, ar_member_date, ar_glob.
    The code for systems with <ar.h> as on GNU/Linux (SARMAG, ARFMAG; no AIAMAG, no ARFZMAG). *)
From Verif Require Import Base M_Text M_Line M_Implicit M_Auto.
Open Scope string_scope.
Open Scope list_scope.
Open Scope nat_scope.

(** atol: white space, a sign, digits; glibc's strtol stays within long.  atoi: its low 32 bits. *)
Fixpoint skip_space (s : str) : str := match s with c :: s' => if isspace c then skip_space s' else s | [] => [] end.
Definition atol (s : str) : Z :=
  let v := match skip_space s with
           | c :: r => if c =?c c_minus then (- digits_val 0 r)%Z else if c =?c c_plus then digits_val 0 r else digits_val 0 (c :: r)
           | [] => 0%Z
           end in
  Z.max (- 2 ^ 63) (Z.min (2 ^ 63 - 1) v).
Definition to_int (z : Z) : Z := ((z + 2 ^ 31) mod 2 ^ 32 - 2 ^ 31)%Z.
Definition atoi (s : str) : Z := to_int (atol s).

(** How a scan ends.  [Found v]: FUNCTION returned [v], not 0.  [Corrupt]: memory outside of a buffer is read or
    written, or alloca is called with a negative size.  [No_stack]: the stack is exhausted.  [Endless]: no end within
    the given number of members. *)
Inductive outcome := Done | Found (v : Z) | No_file | Invalid | Corrupt | No_stack | Endless.

Definition c_backquote : ascii := ascii_of_nat 96.
Definition magic : str := s2l "!<arch>" ++ [c_nl].
Definition fmag : str := [c_backquote; c_nl].
Fixpoint drop_sp (s : str) : str := match s with c :: s' => if c =?c c_sp then drop_sp s' else s | [] => [] end.
Definition strip_sp (s : str) : str := rev (drop_sp (rev s)).

(** src/arscan.c:620-634: newlines in the table of names become NULs, and slashes before them.  [out]: the bytes before,
    the last one first.  A newline at the start looks at the byte before the buffer. *)
Fixpoint munge (out s : str) : option str :=
  match s with
  | [] => Some (rev out)
  | c :: s' =>
      if c =?c c_nl then
        match out with
        | [] => None
        | d :: o => munge (c_nul :: (if d =?c c_slash then c_nul else d) :: o) s'
        end
      else munge (c :: out) s'
  end.
(** src/arscan.c:605-637.  [body]: what can be read behind the header. *)
Definition read_table (stack size : Z) (body : str) : outcome + Z * option str :=
  if (INT_MAX <? size)%Z then inl Invalid
  else if (size <? 0)%Z then inl Corrupt
  else if (stack <? size + 1)%Z then inl No_stack
  else let data := firstn (Z.to_nat size) body in
       if (Z.of_nat (length data) =? size)%Z then match munge [] data with None => inl Corrupt | Some t => inr ((stack - (size + 1))%Z, Some t) end
       else inl Invalid.
(** src/arscan.c:504-567: the name of a member; [field]: ar_name.  The result: name, LONG_NAME, IS_NAMEMAP, the stack left. *)
Definition starts (c : ascii) (s : str) : bool := match s with d :: _ => d =?c c | [] => false end.
Definition is_table (raw : str) : bool := str_eqb (upto_nul raw) (s2l "//") || str_eqb (upto_nul raw) (s2l "ARFILENAMES/").
Definition member_name (stack : Z) (table : option str) (field body : str) : outcome + str * bool * bool * Z :=
  let raw := strip_sp field in
  let name := upto_nul (if starts c_slash (rev raw) then removelast raw else raw) in
  match (if negb (is_table raw) && (starts c_sp name || starts c_slash name) then table else None) with
  | Some t =>
      let off := atoi (tl name) in
      if ((off <? 0) || (Z.of_nat (length t) <=? off))%Z then inl Invalid
      else match upto_nul (skipn (Z.to_nat off) t) with [] => inl Invalid | n => inr (n, true, is_table raw, stack) end
  | None =>
      if prefixb (s2l "#1/") name then
        let len := atoi (skipn 3 name) in
        if (len <? 1)%Z then inl Invalid
        else if (len =? INT_MAX)%Z then inl Corrupt         (* NAME_LEN + 1 *)
        else if (stack <? len + 1)%Z then inl No_stack
        else let n := firstn (Z.to_nat len) body in
             if (Z.of_nat (length n) =? len)%Z then inr (upto_nul n, true, is_table raw, (stack - (len + 1))%Z) else inl Invalid
      else inr (name, false, is_table raw, stack)
  end.

Section Scan.
  Variable A : Type.
  (** FUNCTION: name, "may be truncated", position of the header, size, date. *)
  Variable f : A -> str -> bool -> Z -> Z -> Z -> A * Z.
  Variable file : str.
  (** src/arscan.c:382-645.  The fields of the header are one text: atol runs on into the next field. *)
  Fixpoint scan (fuel : nat) (stack : Z) (table : option str) (off : Z) (a : A) : A * outcome :=
    match fuel with
    | O => (a, Endless)
    | S fuel' =>
        if (off <? 0)%Z then (a, Invalid)
        else
          let rest := skipn (Z.to_nat off) file in
          let hdr := firstn 60 rest in
          match hdr with
          | [] => (a, Done)
          | _ =>
              if negb (length hdr =? 60) || negb (str_eqb (skipn 58 hdr) fmag) then (a, Invalid)
              else
                let body := skipn 60 rest in
                match member_name stack table (firstn 16 hdr) body with
                | inl o => (a, o)
                | inr (name, long, is_tab, stack1) =>
                    let size := atol (skipn 48 hdr) in
                    let '(a', v) := f a name (negb long) off size (atol (skipn 16 hdr)) in
                    if (v =? 0)%Z then
                      match (if is_tab then read_table stack1 size body else inr (stack1, table)) with
                      | inl o => (a', o)
                      | inr (stack2, table') =>
                          let off' := (off + (60 + size))%Z in
                          scan fuel' stack2 table' (if Z.odd off' then off' + 1 else off')%Z a'
                      end
                    else (a', Found v)
                end
          end
    end.
End Scan.
(** src/arscan.c:278-306.  [archive]: its contents, if it can be opened. *)
Definition ar_scan {A} (f : A -> str -> bool -> Z -> Z -> Z -> A * Z) (fuel : nat) (stack : Z) (archive : option str) (a : A) : A * outcome :=
  match archive with
  | None => (a, No_file)
  | Some t => if str_eqb (firstn 8 t) magic then scan A f t fuel stack None 8 a else (a, Invalid)
  end.

(** src/arscan.c:655-706: the part of NAME behind the last slash is compared; 15 bytes if MEM may be truncated. *)
Fixpoint base_from (cur s : str) : str := match s with [] => rev cur | c :: s' => if c =?c c_slash then base_from [] s' else base_from (c :: cur) s' end.
Definition ar_name_equal (name mem : str) (truncated : bool) : bool :=
  let n := base_from [] name in
  if truncated then str_eqb (firstn 15 n) (firstn 15 mem) else str_eqb n mem.

(** src/ar.c:56-65 ar_parse_name. *)
Definition ar_parse_name (name : str) : str * str := (before_paren name, match from_paren name with Some m => removelast m | None => [] end).
(** src/ar.c:78-130 ar_member_date_1, ar_member_date, without the time of the archive itself.  [read]: the contents of files. *)
Definition date_callback (name : str) (a : Z) (mem : str) (truncated : bool) (pos size date : Z) : Z * Z :=
  if ar_name_equal name mem truncated then (date, 1%Z) else (a, 0%Z).
Inductive date_result := Date (z : Z) | Absent | Bad (o : outcome).
Definition ar_member_date (read : str -> option str) (fuel : nat) (stack : Z) (name : str) : date_result :=
  let '(ar, mem) := ar_parse_name name in
  match ar_scan (date_callback mem) fuel stack (read ar) 0%Z with
  | (d, Found v) => if (v =? 1)%Z then Date d else Absent
  | (_, Done) | (_, No_file) | (_, Invalid) => Absent
  | (_, o) => Bad o
  end.

(** sprintf's %lu. *)
Fixpoint lu_loop (fuel : nat) (n : Z) (acc : str) : str :=
  match fuel with
  | O => acc
  | S k => let acc' := ascii_of_nat (48 + Z.to_nat (n mod 10)) :: acc in if (n / 10 =? 0)%Z then acc' else lu_loop k (n / 10) acc'
  end.
Definition show_lu (z : Z) : str := lu_loop 20 (z mod 2 ^ 64) [].
(** src/arscan.c:762-766: the date is blanked, the number written over it and what follows; its NUL becomes a blank. *)
Definition over (t s : str) : str := s ++ skipn (length s) t.
Definition new_header (hdr : str) (mtime : Z) : str :=
  firstn 16 hdr ++ over (repeat c_sp 12 ++ skipn 28 hdr) (show_lu mtime ++ [c_sp]).
(** src/arscan.c:711-790 ar_member_pos, ar_member_touch.  [mtime]: the time of the archive.  The system calls succeed. *)
Definition pos_callback (name : str) (a : unit) (mem : str) (truncated : bool) (pos size date : Z) : unit * Z :=
  (a, if ar_name_equal name mem truncated then pos else 0%Z).
Inductive touch_result := Touched (contents : str) | No_archive | Not_valid | No_member | Failed | Bad_touch (o : outcome).
Definition ar_member_touch (fuel : nat) (stack : Z) (archive : option str) (mem : str) (mtime : Z) : touch_result :=
  match ar_scan (pos_callback mem) fuel stack archive tt, archive with
  | (_, No_file), _ => No_archive
  | (_, Invalid), _ => Not_valid
  | (_, Done), _ => No_member
  | (_, Found pos), Some t =>
      let hdr := firstn 60 (skipn (Z.to_nat pos) t) in
      if length hdr =? 60 then Touched (firstn (Z.to_nat pos) t ++ new_header hdr mtime ++ skipn (Z.to_nat pos + 60) t) else Failed
  | (_, o), _ => Bad_touch o
  end.

(** src/ar.c:221-252 ar_glob_pattern_p (PATTERN, 1). *)
Fixpoint ar_glob_pattern_p (opened : bool) (p : str) : bool :=
  match p with
  | [] => false
  | c :: p' =>
      if (c =?c "?") || (c =?c "*") then true
      else if c =?c c_bslash then match p' with [] => false | _ :: p'' => ar_glob_pattern_p opened p'' end
      else if c =?c "[" then ar_glob_pattern_p true p'
      else if c =?c "]" then if opened then true else ar_glob_pattern_p opened p'
      else ar_glob_pattern_p opened p'
  end.
(** src/ar.c:194-219, 254-295 ar_glob_match, ar_glob.  Behind a backslash at the end of the pattern, ar_glob_pattern_p goes
    on behind its NUL; there is another one, where ar_parse_name got its copy.  [fnmatch]: with FNM_PATHNAME and FNM_PERIOD.  [qsort]: the C library's. *)
Section Glob.
  Variable fnmatch : str -> str -> bool.
  Variable qsort : list str -> list str.
  Definition glob_callback (ar pattern : str) (a : list str) (mem : str) (truncated : bool) (pos size date : Z) : list str * Z :=
    (if fnmatch pattern mem then (ar ++ [c_lparen] ++ mem ++ [c_rparen]) :: a else a, 0%Z).
  Definition ar_glob (fuel : nat) (stack : Z) (archive : option str) (ar pattern : str) : list str + outcome :=
    if ar_glob_pattern_p false pattern then
      match ar_scan (glob_callback ar pattern) fuel stack archive [] with
      | (_, Corrupt) => inr Corrupt | (_, No_stack) => inr No_stack | (_, Endless) => inr Endless
      | (l, _) => inl (qsort l)
      end
    else inl [].
End Glob.
