(** Time stamps: src/filedef.h, src/file.c. *)
From Coq Require Import ZArith.
From Verif Require Import Base.
Open Scope Z_scope.

(** FILE_TIMESTAMP is uintmax_t (src/makeint.h:284), 64 bits; time_t is a signed 64 bit number. *)
Definition word : Z := 2 ^ 64.
Definition u64 (x : Z) : Z := x mod word.

(** src/filedef.h:218-227, 239. *)
Definition UNKNOWN_MTIME : Z := 0.
Definition NONEXISTENT_MTIME : Z := 1.
Definition OLD_MTIME : Z := 2.
Definition ORDINARY_MTIME_MIN : Z := OLD_MTIME + 1.
Definition NEW_MTIME : Z := word - 1.

Section Res.
  Variable hires : bool.                  (* FILE_TIMESTAMP_HI_RES *)

  (** src/filedef.h:161-167. *)
  Definition per_s : Z := if hires then 1000000000 else 1.
  Definition lo_bits : Z := if hires then 30 else 0.
  Definition ts_s (ts : Z) : Z := Z.shiftr (u64 (ts - ORDINARY_MTIME_MIN)) lo_bits.
  Definition ts_ns (ts : Z) : Z := Z.land (u64 (ts - ORDINARY_MTIME_MIN)) (Z.shiftl 1 lo_bits - 1).
  (** src/filedef.h:229-231. *)
  Definition ORDINARY_MTIME_MAX : Z :=
    u64 (Z.shiftl (ts_s NEW_MTIME) lo_bits + ORDINARY_MTIME_MIN + per_s - 1).

  (** src/file.c:703-723 file_timestamp_cons, for [stamp] a time_t and [ns] a tv_nsec.  The
      message is the boolean of the result. *)
  Definition timestamp_cons (stamp ns : Z) : Z * bool :=
    let offset := ORDINARY_MTIME_MIN + (if hires then ns else 0) in
    let s := u64 stamp in
    let product := u64 (Z.shiftl s lo_bits) in
    let ts := u64 (product + offset) in
    if (s <=? ts_s ORDINARY_MTIME_MAX) && (product <=? ts) && (ts <=? ORDINARY_MTIME_MAX)
    then (ts, false)
    else (if s <=? OLD_MTIME then ORDINARY_MTIME_MIN else ORDINARY_MTIME_MAX, true).

  (** src/file.c:791-802, the fraction file_timestamp_sprintf prints: [d] are the nine digits of
      "%09d", from the last to the first. *)
  Fixpoint digits (k : nat) (n : Z) : str :=
    match k with
    | O => []
    | S k' => ascii_of_nat (48 + Z.to_nat (n mod 10)) :: digits k' (n / 10)
    end.
  Fixpoint drop_zeros (s : str) : str :=
    match s with
    | [] => []
    | c :: s' => if c =?c ascii_of_nat 48 then drop_zeros s' else s
    end.
  Definition print_fraction (ts : Z) : str :=
    match drop_zeros (digits 9 (ts_ns ts)) with
    | [] => []
    | d => ascii_of_nat 46 :: rev d
    end.
End Res.

(** The loop of src/remake.c:1545-1610 name_mtime under -L: [links] are the stamps of the
    symbolic links on the way, [st] that of the file itself. *)
Definition name_mtime_links (st : Z) (links : list Z) : Z :=
  fold_left (fun m l => if m <? l then l else m) links st.
