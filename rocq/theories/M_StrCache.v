(** String cache: src/strcache.c. *)
From Verif Require Import Base M_Hash.
Open Scope nat_scope.

(** A pointer into the cache: number of the allocated block and offset in its buffer. *)
Definition handle := (nat * nat)%type.

(** src/strcache.c:30-36 struct strcache; [b_mem] is the [buffer] array.  The statistics
    field [count] is left out. *)
Record block := mkb { b_id : nat; b_mem : str; b_end : nat; b_free : nat }.

(** Items of the table [strings].  C stores only the pointer and compares the texts behind
    it; the text is stored along with it here (P_StrCache proves the text behind a handle
    never changes, so this is no difference). *)
Definition item := (str * handle)%type.
Definition item_same (a b : item) : bool := str_eqb (fst a) (fst b).

(** The static variables of strcache.c; [nid] numbers the allocations. *)
Record sc := mksc {
  avail : list block;            (* strcache *)
  full : list block;             (* fullcache *)
  huge : list (nat * str);       (* hugestrings: block number and buffer *)
  nid : nat;
  total_strings : nat;
  total_size : nat;
  tbl : ht item }.

(** memmove of [w] to [mem + off]; [None] if it does not fit (undefined behaviour). *)
Definition write_at (mem : str) (off : nat) (w : str) : option str :=
  if off + length w <=? length mem
  then Some (firstn off mem ++ w ++ skipn (off + length w) mem) else None.

Section StrCache.
  Variable umax : nat.           (* USHRT_MAX *)
  Variable bufsize : nat.        (* BUFSIZE *)
  Variable h1 h2 : str -> nat.   (* ISTRING_HASH_1/2 *)
  Definition ih1 (a : item) := h1 (fst a).
  Definition ih2 (a : item) := h2 (fst a).
  (** arithmetic of sc_buflen_t *)
  Definition u16 (n : nat) : nat := n mod S umax.

  (** src/strcache.c:58-72 new_cache. *)
  Definition new_cache (id buflen : nat) : block := mkb id (repeat c_nul buflen) 0 buflen.

  (** src/strcache.c:74-87 copy_string. *)
  Definition copy_string (b : block) (s : str) : option (block * handle) :=
    let l := u16 (length s + 1) in
    match write_at (b_mem b) (b_end b) (s ++ [c_nul]) with
    | None => None
    | Some m => Some (mkb (b_id b) m (u16 (b_end b + l)) (u16 (b_free b + S umax - l)),
                      (b_id b, b_end b))
    end.

  (** src/strcache.c:110-113: first cache with enough free space: those before it, it, and
      those after it. *)
  Fixpoint first_fit (sz : nat) (l : list block) : option (list block * block * list block) :=
    match l with
    | [] => None
    | b :: l' =>
        if sz <? b_free b then Some ([], b, l')
        else match first_fit sz l' with
             | None => None
             | Some (pre, x, post) => Some (b :: pre, x, post)
             end
    end.

  (** src/strcache.c:89-137 add_string. *)
  Definition add_string (st : sc) (s : str) : option (sc * handle) :=
    let sz := u16 (length s + 1) in
    let ts := S (total_strings st) in
    let tz := total_size st + sz in
    if bufsize <? sz then
      match copy_string (new_cache (nid st) sz) s with
      | None => None
      | Some (b, h) => Some (mksc (avail st) (b :: full st) (huge st) (S (nid st)) ts tz (tbl st), h)
      end
    else
      let '(pre, b0, post, id) :=
        match first_fit sz (avail st) with
        | Some (pre, b, post) => (pre, b, post, nid st)
        | None => ([], new_cache (nid st) bufsize, avail st, S (nid st))
        end in
      match copy_string b0 s with
      | None => None
      | Some (b, h) =>
          if (20 <? ts) && (b_free b <? tz / ts + 1)
          then Some (mksc (pre ++ post) (b :: full st) (huge st) id ts tz (tbl st), h)
          else Some (mksc (pre ++ b :: post) (full st) (huge st) id ts tz (tbl st), h)
      end.

  (** src/strcache.c:145-156 add_hugestring. *)
  Definition add_hugestring (st : sc) (s : str) : sc * handle :=
    (mksc (avail st) (full st) ((nid st, s ++ [c_nul]) :: huge st) (S (nid st))
          (total_strings st) (total_size st) (tbl st), (nid st, 0)).

  (** src/strcache.c:181-207 add_hash, the body of strcache_add and strcache_add_len.
      [None]: probing does not end, or undefined behaviour. *)
  Definition strcache_add (st : sc) (s : str) : option (sc * handle) :=
    if umax - 1 <? length s then Some (add_hugestring st s)
    else
      match find_item item item_same ih1 ih2 (tbl st) (s, (0, 0)) with
      | None => None
      | Some (Some (_, h)) => Some (st, h)
      | Some None =>
          match add_string st s with
          | None => None
          | Some (st', h) =>
              match insert item item_same ih1 ih2 (tbl st') (s, h) with
              | None => None
              | Some (t, _) =>
                  Some (mksc (avail st') (full st') (huge st') (nid st') (total_strings st')
                             (total_size st') t, h)
              end
          end
      end.

  (** src/strcache.c:209-231 strcache_iscached. *)
  Definition in_block (h : handle) (b : block) : bool :=
    (fst h =? b_id b) && (snd h <? b_end b).
  Definition strcache_iscached (st : sc) (h : handle) : bool :=
    existsb (in_block h) (avail st) || existsb (in_block h) (full st)
    || existsb (fun x => (fst h =? fst x) && (snd h =? 0)) (huge st).

  (** src/strcache.c:256-260 strcache_init (8000 slots asked for). *)
  Definition strcache_init : sc := mksc [] [] [] 0 0 0 (hash_init item 8000).

  Fixpoint sc_run (st : sc) (l : list str) : option (sc * list handle) :=
    match l with
    | [] => Some (st, [])
    | s :: l' =>
        match strcache_add st s with
        | None => None
        | Some (st', h) =>
            match sc_run st' l' with
            | None => None
            | Some (st'', hs) => Some (st'', h :: hs)
            end
        end
    end.
End StrCache.

(** The C string a pointer refers to. *)
Fixpoint until_nul (m : str) : option str :=
  match m with
  | [] => None
  | c :: m' => if c =?c c_nul then Some [] else option_map (cons c) (until_nul m')
  end.
Definition memory (st : sc) : list (nat * str) :=
  map (fun b => (b_id b, b_mem b)) (avail st ++ full st) ++ huge st.
Fixpoint assoc {B} (k : nat) (l : list (nat * B)) : option B :=
  match l with
  | [] => None
  | (x, v) :: l' => if k =? x then Some v else assoc k l'
  end.
Definition text_at (st : sc) (h : handle) : option str :=
  match assoc (fst h) (memory st) with
  | Some m => until_nul (skipn (snd h) m)
  | None => None
  end.
