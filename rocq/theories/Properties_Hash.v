(** C01, C02: hash tables (src/hash.c). *)
From Verif Require Import Base M_Hash S_Hash P_Hash.
Open Scope nat_scope.

(** What a client must supply: a key comparison that is an equivalence and two hash
    functions that respect it. *)
Definition client_ok (A : Type) (same : A -> A -> bool) (hash1 hash2 : A -> nat) : Prop :=
  (forall a, same a a = true) /\
  (forall a b, same a b = same b a) /\
  (forall a b c, same a b = true -> same b c = true -> same a c = true) /\
  (forall a b, same a b = true -> hash1 a = hash1 b) /\
  (forall a b, same a b = true -> hash2 a = hash2 b).

(** A table created with any size hint of at least 8 (16 slots) behaves as the finite
    map [m_step], whatever the hash functions and the history. *)
Theorem C01_hash_refines_map :
  forall A same hash1 hash2, client_ok A same hash1 hash2 ->
  forall hint ops, (8 <= hint < 2 ^ 63)%N ->
  exists t rs, run A same hash1 hash2 (hash_init A hint) ops = Some (t, rs) /\
               outs_ok A same [] ops rs /\
               Permutation (lives (vec t)) (m_final A same [] ops).
Proof.
  intros A same hash1 hash2 [H1 [H2 [H3 [H4 H5]]]] hint ops [L U].
  rewrite hash_init_pow by exact U.
  destruct (run_from_init A same hash1 hash2 H1 H2 H3 H4 H5 _ ops (or_introl (size_ge_16 hint L)))
    as [t [rs [E [_ [P O]]]]].
  exists t, rs. exact (conj E (conj O P)).
Qed.
Print Assumptions C01_hash_refines_map.

(** Smaller tables are also correct as long as the history has at most [hint] inserts (the
    way $(filter) uses them, src/function.c:953). *)
Theorem C01_small_hash_refines_map :
  forall A same hash1 hash2, client_ok A same hash1 hash2 ->
  forall hint ops, (hint < 2 ^ 63)%N -> inserts A ops <= N.to_nat hint ->
  exists t rs, run A same hash1 hash2 (hash_init A hint) ops = Some (t, rs) /\
               outs_ok A same [] ops rs.
Proof.
  intros A same hash1 hash2 [H1 [H2 [H3 [H4 H5]]]] hint ops U L.
  rewrite hash_init_pow by exact U.
  pose proof (size_gt hint) as G.
  destruct (run_from_init A same hash1 hash2 H1 H2 H3 H4 H5 _ ops
              (or_intror (Nat.le_lt_trans _ _ _ L G))) as [t [rs [E [_ [P O]]]]].
  exists t, rs. exact (conj E O).
Qed.
Print Assumptions C01_small_hash_refines_map.

Theorem C02_hash_fill_and_termination :
  forall A same hash1 hash2, client_ok A same hash1 hash2 ->
  forall hint ops t rs, (8 <= hint < 2 ^ 63)%N ->
  run A same hash1 hash2 (hash_init A hint) ops = Some (t, rs) ->
  fill t = length (m_final A same [] ops) /\
  (exists i, i < size t /\ get (vec t) i = Empty) /\
  (forall key, find_slot A same hash1 hash2 (vec t) (size t) key <> None).
Proof.
  intros A same hash1 hash2 [H1 [H2 [H3 [H4 H5]]]] hint ops t rs [L U] E.
  rewrite hash_init_pow in E by exact U.
  exact (run_fill A same hash1 hash2 H1 H2 H3 H4 H5 _ ops t rs
           (or_introl (size_ge_16 hint L)) E).
Qed.
Print Assumptions C02_hash_fill_and_termination.

(** FINDING: below 16 slots [ht_capacity = ht_size], so the table never grows; once full,
    looking up an absent key never returns. *)
Theorem C02_small_table_loops_refuted :
  exists hint (ops : list (op nat)) t rs key,
    run nat Nat.eqb id id (hash_init nat hint) ops = Some (t, rs) /\
    length ops = 2 /\
    forall fuel, find_slot_fuel nat Nat.eqb id id fuel (vec t) (size t) key = None.
Proof.
  exists 1%N, [Insert 0; Insert 1].
  destruct (run nat Nat.eqb id id (hash_init nat 1) [Insert 0; Insert 1]) as [[t rs]|] eqn:E.
  - exists t, rs, 2. split; [reflexivity|]. split; [reflexivity|].
    vm_compute in E. inversion E; subst t rs.
    apply find_slot_loops; [simpl; lia|]. vm_compute. reflexivity.
  - vm_compute in E. discriminate.
Qed.
Print Assumptions C02_small_table_loops_refuted.

(** Non-vacuity: [nat] items with colliding hash functions are a client, and a concrete
    history with displacement, deletion and reuse runs. *)
Example client_ok_nat : client_ok nat Nat.eqb (fun _ => 3) (fun _ => 0).
Proof.
  repeat split; auto; intros.
  - apply Nat.eqb_refl.
  - apply Nat.eqb_sym.
  - apply Nat.eqb_eq in H, H0. subst. apply Nat.eqb_refl.
Qed.

Example hash_history :
  match run nat Nat.eqb (fun _ => 3) (fun _ => 0) (hash_init nat 8)
            [Insert 5; Insert 7; Delete 5; Insert 9; Find 7; Find 5; Dump] with
  | Some (t, rs) => rs = [OItem None; OItem None; OItem (Some 5); OItem None;
                          OItem (Some 7); OItem None; ODump [9; 7]] /\ size t = 16
  | None => False
  end.
Proof. vm_compute. split; reflexivity. Qed.
