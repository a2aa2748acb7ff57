(** Model of make's open-addressing hash table, src/hash.c. *)
From Verif Require Import Base.

(** src/hash.c:36 [hash_deleted_item], hash.h HASH_VACANT: a slot is NULL, the
    tombstone, or an item pointer. *)
Inductive slot (A : Type) : Type := Empty | Deleted | Live (a : A).
Arguments Empty {A}. Arguments Deleted {A}. Arguments Live {A} a.

Section Hash.
  Variable A : Type.
  (** [same a b = true] models [ht_compare (a, b) == 0] (pointer-equal items, tested
      first in the C code, compare equal in every client). *)
  Variable same : A -> A -> bool.
  Variable hash1 hash2 : A -> nat.

  (** hash.h [struct hash_table]; the statistics counters (collisions, lookups,
      rehashes) are not modelled. *)
  Record ht := mkht {
    vec : list (slot A);
    size : nat;
    cap : nat;
    fill : nat;
    empty : nat }.

  Definition get (v : list (slot A)) (i : nat) : slot A := nth i v Deleted.

  Fixpoint set {B} (v : list B) (i : nat) (x : B) : list B :=
    match v, i with
    | [], _ => []
    | _ :: v', O => x :: v'
    | y :: v', S i' => y :: set v' i' x
    end.

  Definition vacant (s : slot A) : bool :=
    match s with Live _ => false | _ => true end.

  (** src/hash.c:70-106 hash_find_slot, the loop.  [i] is hash_1 already masked,
      [step] is hash_2 (forced odd), [del] the first tombstone seen.  Masking is
      [mod size] because sizes are powers of two; the 32 bit wrap of hash_1 commutes
      with the mask as long as size <= 2^32.  [None] = still looping. *)
  Fixpoint probe (v : list (slot A)) (sz : nat) (key : A) (step i : nat)
           (del : option nat) (fuel : nat) : option nat :=
    match fuel with
    | O => None
    | S fuel' =>
        match get v i with
        | Empty => Some (match del with Some d => d | None => i end)
        | Deleted =>
            probe v sz key step ((i + step) mod sz)
                  (match del with Some d => Some d | None => Some i end) fuel'
        | Live b =>
            if same key b then Some i
            else probe v sz key step ((i + step) mod sz) del fuel'
        end
    end.

  Definition step_of (key : A) : nat := Nat.lor (hash2 key) 1.

  Definition find_slot_fuel (fuel : nat) (v : list (slot A)) (sz : nat) (key : A)
    : option nat :=
    probe v sz key (step_of key) (hash1 key mod sz) None fuel.

  (** The probe sequence has period [sz] at most, so [sz] iterations decide; see
      [find_slot_loops] in P_Hash.v. *)
  Definition find_slot (v : list (slot A)) (sz : nat) (key : A) : option nat :=
    find_slot_fuel sz v sz key.

  (** src/hash.c:41-62 hash_init, given the already rounded size. *)
  Definition init_sized (sz : nat) : ht :=
    mkht (repeat Empty sz) sz (sz - sz / 16) 0 sz.

  (** src/hash.c:108-113 hash_find_item. Outer option: termination. *)
  Definition find_item (t : ht) (key : A) : option (option A) :=
    match find_slot (vec t) (size t) key with
    | None => None
    | Some i => Some (match get (vec t) i with Live a => Some a | _ => None end)
    end.

  (** src/hash.c:239-248: the reinsertion loop of hash_rehash. *)
  Fixpoint reinsert (old : list (slot A)) (v : list (slot A)) (sz : nat)
    : option (list (slot A)) :=
    match old with
    | [] => Some v
    | Live a :: old' =>
        match find_slot v sz a with
        | None => None
        | Some i => reinsert old' (set v i (Live a)) sz
        end
    | _ :: old' => reinsert old' v sz
    end.

  (** src/hash.c:225-251 hash_rehash. *)
  Definition rehash (t : ht) : option ht :=
    let dbl := cap t <=? fill t in
    let sz := if dbl then size t * 2 else size t in
    let cp := if dbl then sz - sz / 16 else cap t in
    match reinsert (vec t) (repeat Empty sz) sz with
    | None => None
    | Some v => Some (mkht v sz cp (fill t) (sz - fill t))
    end.

  (** src/hash.c:124-143 hash_insert_at (the returned slot address, only used by
      callers that insert by slot, is re-found by them and not modelled). *)
  Definition insert_at (t : ht) (a : A) (i : nat) : option ht :=
    let old := get (vec t) i in
    let f := if vacant old then S (fill t) else fill t in
    let e := match old with Empty => empty t - 1 | _ => empty t end in
    let t' := mkht (set (vec t) i (Live a)) (size t) (cap t) f e in
    if e <? size t - cap t then rehash t' else Some t'.

  (** src/hash.c:115-122 hash_insert: new table and the displaced item. *)
  Definition insert (t : ht) (a : A) : option (ht * option A) :=
    match find_slot (vec t) (size t) a with
    | None => None
    | Some i =>
        match insert_at t a i with
        | None => None
        | Some t' =>
            Some (t', match get (vec t) i with Live b => Some b | _ => None end)
        end
    end.

  (** src/hash.c:145-164 hash_delete, hash_delete_at. *)
  Definition delete (t : ht) (key : A) : option (ht * option A) :=
    match find_slot (vec t) (size t) key with
    | None => None
    | Some i =>
        match get (vec t) i with
        | Live b =>
            Some (mkht (set (vec t) i Deleted) (size t) (cap t) (fill t - 1) (empty t),
                  Some b)
        | _ => Some (t, None)
        end
    end.

  (** src/hash.c:183-195 hash_delete_items. *)
  Definition clear (t : ht) : ht :=
    mkht (repeat Empty (size t)) (size t) (cap t) 0 (size t).

  (** src/hash.c:211-221 hash_map and 264-288 hash_dump without a comparison: the
      live items in slot order. *)
  Fixpoint lives (v : list (slot A)) : list A :=
    match v with
    | [] => []
    | Live a :: v' => a :: lives v'
    | _ :: v' => lives v'
    end.

  Inductive op := Find (k : A) | Insert (a : A) | Delete (k : A) | Clear | Dump.
  Inductive out := OItem (a : option A) | OUnit | ODump (l : list A).

  Definition step (t : ht) (o : op) : option (ht * out) :=
    match o with
    | Find k => match find_item t k with
                | Some r => Some (t, OItem r) | None => None end
    | Insert a => match insert t a with
                  | Some (t', r) => Some (t', OItem r) | None => None end
    | Delete k => match delete t k with
                  | Some (t', r) => Some (t', OItem r) | None => None end
    | Clear => Some (clear t, OUnit)
    | Dump => Some (t, ODump (lives (vec t)))
    end.

  (** [None] = some operation did not terminate. *)
  Fixpoint run (t : ht) (ops : list op) : option (ht * list out) :=
    match ops with
    | [] => Some (t, [])
    | o :: ops' =>
        match step t o with
        | None => None
        | Some (t', r) =>
            match run t' ops' with
            | None => None
            | Some (t'', rs) => Some (t'', r :: rs)
            end
        end
    end.
End Hash.

Arguments Find {A}. Arguments Insert {A}. Arguments Delete {A}.
Arguments Clear {A}. Arguments Dump {A}.
Arguments OItem {A}. Arguments OUnit {A}. Arguments ODump {A}.
Arguments mkht {A}. Arguments vec {A}. Arguments size {A}. Arguments cap {A}.
Arguments fill {A}. Arguments empty {A}.
Arguments get {A}. Arguments vacant {A}. Arguments lives {A}.
Arguments init_sized {A}. Arguments clear {A}.

(** src/hash.c:292-308 round_up_2 on a 64 bit unsigned long: the final [n + 1] wraps. *)
Definition round_up_2 (n : N) : N :=
  let n := N.lor n (N.shiftr n 1) in
  let n := N.lor n (N.shiftr n 2) in
  let n := N.lor n (N.shiftr n 4) in
  let n := N.lor n (N.shiftr n 8) in
  let n := N.lor n (N.shiftr n 16) in
  let n := N.lor n (N.shiftr n 32) in
  ((n + 1) mod (2 ^ 64))%N.

(** src/hash.c:41-62 hash_init with the caller's size hint. *)
Definition hash_init (A : Type) (hint : N) : ht A :=
  init_sized (N.to_nat (round_up_2 hint)).
