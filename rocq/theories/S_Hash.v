(** Specification of a hash table: a finite set of items, at most one per key. *)
From Verif Require Import Base M_Hash.

Section Spec.
  Variable A : Type.
  Variable same : A -> A -> bool.

  (** Contents, in no particular order. *)
  Definition fmap := list A.

  Definition m_find (m : fmap) (k : A) : option A := List.find (same k) m.
  Definition m_remove (m : fmap) (k : A) : fmap :=
    List.filter (fun b => negb (same k b)) m.

  Definition m_step (m : fmap) (o : op A) : fmap * option A :=
    match o with
    | Find k => (m, m_find m k)
    | Insert a => (a :: m_remove m a, m_find m a)
    | Delete k => (m_remove m k, m_find m k)
    | Clear => ([], None)
    | Dump => (m, None)
    end.

  (** What an output must be: the item asked for, or (for a dump) each item of the map
      exactly once. *)
  Definition out_ok (m : fmap) (o : op A) (r : out A) : Prop :=
    match o, r with
    | Clear, OUnit => True
    | Dump, ODump l => Permutation l m
    | Find _, OItem x | Insert _, OItem x | Delete _, OItem x => x = snd (m_step m o)
    | _, _ => False
    end.

  Fixpoint outs_ok (m : fmap) (ops : list (op A)) (rs : list (out A)) : Prop :=
    match ops, rs with
    | [], [] => True
    | o :: ops', r :: rs' => out_ok m o r /\ outs_ok (fst (m_step m o)) ops' rs'
    | _, _ => False
    end.

  Definition m_final (m : fmap) (ops : list (op A)) : fmap :=
    fold_left (fun m o => fst (m_step m o)) ops m.
End Spec.
