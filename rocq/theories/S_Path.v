(** File names as lists of components. *)
From Verif Require Import Base.

Definition add_comp (cur : str) (l : list str) : list str := match cur with [] => l | _ => cur :: l end.
(** The pieces between slashes, empty ones dropped. *)
Fixpoint comps_from (cur s : str) : list str :=
  match s with
  | [] => add_comp cur []
  | c :: s' => if c =?c c_slash then add_comp cur (comps_from [] s') else comps_from (cur ++ [c]) s'
  end.
Definition components (s : str) : list str := comps_from [] s.

Definition render (l : list str) : str :=
  match l with [] => [c_slash] | _ => concat (map (fun c => c_slash :: c) l) end.

(** Walking: a dot stays, two dots go up (not above the root). *)
Fixpoint resolve (l : list str) (cs : list str) : list str :=
  match cs with
  | [] => l
  | c :: cs' =>
      if str_eqb c [c_dot] then resolve l cs'
      else if str_eqb c [c_dot; c_dot] then resolve (removelast l) cs'
      else resolve (l ++ [c]) cs'
  end.

Definition canonical (c : str) : Prop :=
  c <> [] /\ ~ In c_slash c /\ c <> [c_dot] /\ c <> [c_dot; c_dot].
