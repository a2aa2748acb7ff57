(** What is counted about jobs, stated on the processes alone. *)
From Verif Require Import Base M_Jobs.

(** The commands running at or below a job. *)
Fixpoint running (j : job) : nat :=
  match j with
  | JLeaf => 1
  | JMake m => list_sum (map (fun c => running (c_job c)) (m_chain m))
  | _ => 0
  end.

(** The tokens the makes at or below a job have taken out of the pipe: every
    make has one job for free. *)
Fixpoint held (j : job) : nat :=
  match j with
  | JMake m => (m_tokens m - 1) + list_sum (map (fun c => held (c_job c)) (m_chain m))
  | _ => 0
  end.

Definition total (f : job -> nat) (l : list job) : nat := list_sum (map f l).

(** Is make [m] one of the makes at or below a job? *)
Inductive is_in (m : make) : job -> Prop :=
  | in_here : is_in m (JMake m)
  | in_below : forall m' c, In c (m_chain m') -> is_in m (c_job c) -> is_in m (JMake m').

Definition is_among (m : make) (l : list job) : Prop := exists j, In j l /\ is_in m j.

(** Does the job hang directly below some make of the world? *)
Definition is_child (j : job) (l : list job) : Prop :=
  exists m c, is_among m l /\ In c (m_chain m) /\ c_job c = j.

(** Nothing runs any more. *)
Definition all_exited (l : list job) : Prop := forall j, In j l -> exists s, j = JExited s.
