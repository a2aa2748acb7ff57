(** Makefiles to try the model on. *)
From Verif Require Import Base M_Build S_Build.
(** [mk g inter recipe keep how w]: file [n] has the prerequisites [nth n g []]; the files in [inter]
    are intermediate; those in [recipe] have a recipe; all are targets. *)
Definition plain (f : nat) := mkdep f false false.
Definition mk (g : list (list nat)) (inter recipe : list nat) keep how w :=
  mkmake (fun n => map plain (nth n g [])) (fun _ => false) (fun _ => true) (fun n => existsb (Nat.eqb n) recipe) (fun _ => false) (fun _ => false)
    (fun n => existsb (Nat.eqb n) inter) (fun _ => false) keep false how w.
(** Each recipe is run at once, writes its target and succeeds. *)
Definition good (c : nat) := mktick 0 true (fun f d n => if n =? f then At (100 + c) else d n) 0 1.
(** The same, but the recipe that ends at the time [t] fails. *)
Definition failing (t : nat) (c : nat) := mktick 0 (negb (c =? t)) (fun f d n => if n =? f then At (100 + c) else d n) 0 1.
(** Several jobs: nothing is reaped until make has nothing left to start. *)
Definition jobs (c : nat) := mktick 0 true (fun f d n => if n =? f then At (100 + c) else d n) 0 0.
Definition events {A} (r : res A) : option (list event) := match r with Ok _ st | Die st => Some (rev (s_trace st)) | Out => None end.
