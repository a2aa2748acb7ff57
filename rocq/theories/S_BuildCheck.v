(** Makefiles as data, and tests of what S_Build claims of their builds.  A test fails only if the claim is false: Properties_BuildCheck
    proves this from the theorems.  [newer], [bad] and the like of the model are not used. *)
From Verif Require Import Base M_Build S_Build.
Open Scope list_scope.
Open Scope nat_scope.

(** Each list has the numbers of the files with that attribute.  [x_new]: recipes write the newest of times.  The worlds' ticks: nth, and at the end a default. *)
Record mf := mkmf { x_deps : list (list (nat * bool)); x_phony : list nat; x_target : list nat; x_cmds : list nat; x_blank : list nat; x_double : list nat;
  x_inter : list nat; x_tried : list nat; x_keep : bool; x_always : bool; x_how : mode; x_new : bool; x_ok : list bool; x_pick : list nat; x_before : list nat; x_after : list nat; x_disk : list time; x_goals : list nat }.
Definition memb (n : nat) (l : list nat) : bool := existsb (Nat.eqb n) l.
Definition size (x : mf) : nat := length (x_deps x).
Definition deps_of (x : mf) (n : nat) : list (nat * bool) := nth n (x_deps x) [].
Definition world_of (x : mf) (c : nat) : tick :=
  mktick (nth c (x_pick x) 0) (nth c (x_ok x) true) (fun f D n => if n =? f then (if x_new x then New else At (100 + c)) else D n) (nth c (x_before x) 0) (nth c (x_after x) 1).
Definition make_of (x : mf) : make :=
  mkmake (fun n => map (fun p => mkdep (fst p) (snd p) false) (deps_of x n)) (fun n => memb n (x_phony x)) (fun n => memb n (x_target x)) (fun n => memb n (x_cmds x))
    (fun n => memb n (x_blank x)) (fun n => memb n (x_double x)) (fun n => memb n (x_inter x)) (fun n => memb n (x_tried x)) (x_keep x) (x_always x) (x_how x) (world_of x).
Definition disk_of (x : mf) (n : nat) : time := nth n (x_disk x) Absent.
Definition run_of (x : mf) (disk : nat -> time) : res us := build (make_of x) disk 0 (2 * size x + 1) (2 * size x + 2) (x_goals x).

Definition files (x : mf) : list nat := seq 0 (size x).
Definition absent (a : time) : bool := match a with Absent => true | _ => false end.
Definition same_time (a b : time) : bool := match a, b with Absent, Absent => true | New, New => true | At n, At k => n =? k | _, _ => false end.
Definition later_b (a b : time) : bool := match a, b with At k, At n => n <? k | New, At _ => true | Absent, _ => false | _, Absent => true | _, New => false end.
Definition fits_b (x : mf) : bool :=
  forallb (fun g => g <? size x) (x_goals x) && forallb (fun l => forallb (fun p => fst p <? size x) l) (x_deps x) &&
  (x_keep x || match x_how x with Normal | Dry => true | _ => false end) &&
  forallb (fun f => absent (disk_of x f) || (memb f (x_cmds x) && negb (memb f (x_tried x)))) (x_inter x).

(** Sets of files. *)
Fixpoint grow (k : nat) (succ : nat -> list nat) (l : list nat) : list nat := match k with 0 => l | S k' => grow k' succ (nodup Nat.eq_dec (l ++ flat_map succ l)) end.
Definition closed (succ : nat -> list nat) (l : list nat) : bool := forallb (fun a => forallb (fun b => memb b l) (succ a)) l.
(** Perhaps in the set; certainly in it. *)
Definition perhaps (x : mf) (succ : nat -> list nat) (l : list nat) (n : nat) : bool := let W := grow (size x) succ l in negb (closed succ W) || memb n W.
Definition surely (x : mf) (succ : nat -> list nat) (l : list nat) (n : nat) : bool := memb n (grow (size x) succ l).

Definition ev_eqb (a b : event) : bool :=
  match a, b with
  | Start f, Start g => f =? g | Finish f o, Finish g p => (f =? g) && Bool.eqb o p | NoRule f, NoRule g => f =? g | Drop f d, Drop g e => (f =? g) && (d =? e) | _, _ => false
  end.
Definition has (t : list event) (e : event) : bool := existsb (ev_eqb e) t.
(** [p] holds of each event and those before it. *)
Fixpoint each (p : event -> list event -> bool) (t : list event) : bool := match t with [] => true | e :: t1 => p e t1 && each p t1 end.
Fixpoint distinct (l : list nat) : bool := match l with [] => true | a :: l' => negb (memb a l') && distinct l' end.

Definition heads (x : mf) (f : nat) : list nat := map fst (deps_of x f).
Definition parents (x : mf) (ok : nat -> nat -> bool -> bool) (d : nat) : list nat :=
  filter (fun f => existsb (fun p => (fst p =? d) && ok f d (snd p)) (deps_of x f)) (files x).
Definition plain_dep (x : mf) (d : nat) : bool := negb (memb d (x_inter x)) || memb d (x_phony x).
Definition failed_in (t : list event) : list nat := flat_map (fun e => match e with Finish f false => [f] | NoRule f => [f] | _ => [] end) t.

Definition t_once (x : mf) (t : list event) : bool :=
  distinct (starts t) && distinct (finishes t) && each (fun e t1 => match e with Finish f _ => has t1 (Start f) | _ => true end) t &&
  forallb (fun e => match e with
    | Start f => perhaps x (heads x) (x_goals x) f && memb f (x_cmds x) && negb (memb f (x_blank x))
    | NoRule f => perhaps x (heads x) (x_goals x) f && negb (memb f (x_cmds x)) && negb (memb f (x_target x)) && negb (memb f (x_phony x))
    | _ => true end) t.
Definition t_order (x : mf) (t : list event) : bool :=
  each (fun e t1 => match e with
    | Start f => forallb (fun p => has t1 (Drop f (fst p)) || ((negb (has t (Start (fst p))) || has t1 (Finish (fst p) true)) && negb (has t (Finish (fst p) false)) && negb (has t (NoRule (fst p))))) (deps_of x f)
    | _ => true end) t.
Definition t_reason (x : mf) (t : list event) (this : time) (d : nat) : bool :=
  perhaps x (parents x (fun f _ o => memb f (x_inter x) && negb o))
    (filter (fun d => memb d (x_phony x) || (negb (memb d (x_inter x)) && absent (disk_of x d)) || later_b (disk_of x d) this || has t (Finish d true) || has t (Finish d false)) (files x)) d.
Definition t_needed (x : mf) (t : list event) : bool :=
  each (fun e t1 => match e with
    | Start f | NoRule f => memb f (x_phony x) || absent (disk_of x f) || x_always x || (memb f (x_double x) && forallb (fun p => has t1 (Drop f (fst p))) (deps_of x f)) ||
        existsb (fun p => negb (snd p) && t_reason x t1 (disk_of x f) (fst p)) (deps_of x f)
    | _ => true end) t.
Definition t_drops (x : mf) (t : list event) : bool :=
  forallb (fun e => match e with Drop f d => perhaps x (heads x) [d] f && memb d (heads x f) | _ => true end) t.
Definition t_needs (x : mf) (t : list event) (g : nat) : list nat :=
  grow (size x) (fun f => map fst (filter (fun p => negb (has t (Drop f (fst p))) && plain_dep x (fst p)) (deps_of x f))) [g].
Definition t_doomed (x : mf) (t : list event) (f : nat) : bool := surely x (parents x (fun f d _ => negb (has t (Drop f d)) && plain_dep x d)) (failed_in t) f.
Definition t_hopeless (x : mf) (t : list event) (f : nat) : bool := perhaps x (parents x (fun _ _ _ => true)) (failed_in t) f.
Definition t_unmade (x : mf) (t : list event) (f : nat) : bool :=
  (memb f (x_cmds x) && negb (memb f (x_blank x)) && negb (has t (Start f))) || (negb (memb f (x_cmds x)) && negb (memb f (x_target x)) && negb (memb f (x_phony x))).
Definition t_accomplished (x : mf) (t : list event) (D : nat -> time) (f : nat) : bool :=
  (negb (has t (Start f)) || has t (Finish f true)) && negb (has t (Finish f false)) && negb (has t (NoRule f)) &&
  (negb (t_unmade x t f) ||
   (negb (memb f (x_phony x)) && negb (absent (D f)) && forallb (fun p => snd p || has t (Drop f (fst p)) || negb (plain_dep x (fst p)) || (negb (memb (fst p) (x_phony x)) && negb (absent (D (fst p))) && negb (later_b (D (fst p)) (D f)))) (deps_of x f))).
Definition t_foreseen (x : mf) (t : list event) (f : nat) : bool :=
  negb (has t (NoRule f)) &&
  (negb (t_unmade x t f) ||
   (negb (memb f (x_phony x)) && negb (absent (disk_of x f)) && forallb (fun p => snd p || has t (Drop f (fst p)) || negb (plain_dep x (fst p)) ||
     (negb (memb (fst p) (x_phony x)) && negb (absent (disk_of x (fst p))) && negb (later_b (disk_of x (fst p)) (disk_of x f)) && negb (has t (Start (fst p))))) (deps_of x f))).
Definition t_present (x : mf) (t : list event) : bool :=
  each (fun e t1 => match e with
    | Start f => forallb (fun p => let d := fst p in has t1 (Drop f d) || memb d (x_phony x) || (memb d (x_cmds x) && memb d (x_blank x)) || (negb (memb d (x_cmds x)) && memb d (x_target x)) || has t1 (Finish d true) || negb (absent (disk_of x d))) (deps_of x f)
    | _ => true end) t.
Definition t_contained (x : mf) (t : list event) : bool :=
  forallb (fun e => match e with Start f => forallb (fun p => has t (Drop f (fst p)) || negb (plain_dep x (fst p)) || negb (t_doomed x t (fst p))) (deps_of x f) | _ => true end) t.
Definition failure_b (e : event) : bool := match e with Finish _ false | NoRule _ => true | _ => false end.
Definition t_stops (t : list event) : bool := match t with [] => true | _ :: t1 => negb (existsb failure_b t1) end.
Definition fine_b (s : us) : bool := match s with Success | NoAttempt => true | _ => false end.
Definition normal (x : mf) : bool := match x_how x with Normal => true | _ => false end.

Definition t_any (x : mf) (st : state) : bool :=
  let t := s_trace st in
  t_once x t && t_order x t && (negb (normal x) || t_needed x t) && t_drops x t && t_contained x t && (x_keep x || t_stops t) && t_present x t.
Definition t_modes (x : mf) (st : state) : bool :=
  match x_how x with
  | Normal => true
  | Dry => forallb (fun f => same_time (s_disk st f) (disk_of x f)) (files x)
  | Ask => forallb (fun f => same_time (s_disk st f) (disk_of x f)) (files x) && match starts (s_trace st) with [] => true | _ => false end
  | Touch => forallb (fun f => same_time (s_disk st f) (disk_of x f) || (memb f (x_cmds x) && negb (memb f (x_phony x)))) (files x) && match starts (s_trace st) with [] => true | _ => false end
  end.
Definition no_new (x : mf) : bool := forallb (fun a => match a with New => false | _ => true end) (x_disk x).
Definition t_foreseen_end (x : mf) (s : us) (t : list event) : bool :=
  match x_how x with
  | Dry => negb (no_new x) || forallb (fun g => forallb (fun f => (negb (fine_b s) && t_hopeless x t f) || t_foreseen x t f) (t_needs x t g)) (x_goals x)
  | Ask => negb (no_new x) || negb (fine_b s) || forallb (fun g => forallb (t_foreseen x t) (t_needs x t g)) (x_goals x)
  | _ => true
  end.
Definition t_ok_end (x : mf) (s : us) (st : state) : bool :=
  let t := s_trace st in
  (x_keep x || (fine_b s && negb (existsb failure_b t))) &&
  (negb (fine_b s && normal x) || forallb (fun g => forallb (t_accomplished x t (s_disk st)) (t_needs x t g)) (x_goals x)) &&
  (negb (x_keep x) ||
    ((negb (normal x) || forallb (fun g => forallb (fun f => t_hopeless x t f || t_accomplished x t (s_disk st) f) (t_needs x t g)) (x_goals x)) &&
     (negb (fine_b s) || forallb (fun g => negb (t_doomed x t g)) (x_goals x)) &&
     (negb match x_how x with Normal | Dry => true | _ => false end || fine_b s || existsb (t_hopeless x t) (x_goals x)))).
(** The first build, whatever it is. *)
Definition check (x : mf) : bool :=
  match run_of x (disk_of x) with
  | Out => false
  | Ok s st => t_any x st && t_modes x st && t_ok_end x s st && t_foreseen_end x s (s_trace st)
  | Die st => t_any x st && t_modes x st && negb (x_keep x) && match s_trace st with e :: _ => failure_b e | [] => false end
  end.
(** The second build. *)
Definition second_b (x : mf) (st : state) : bool :=
  normal x && negb (x_always x) && match x_double x, x_inter x with [], [] => true | _, _ => false end && x_new x &&
  forallb (fun f => forallb (fun d => negb (perhaps x (heads x) [d] f)) (heads x f)) (files x) &&
  forallb (fun f => if memb f (x_phony x) then negb (memb f (x_cmds x)) else negb (absent (s_disk st f)) && forallb (fun p => snd p || negb (memb (fst p) (x_phony x))) (deps_of x f)) (files x).
Definition check2 (x : mf) : bool :=
  match run_of x (disk_of x) with
  | Ok s st =>
      negb (fine_b s && second_b x st) ||
      match run_of x (s_disk st) with
      | Ok s' st' => fine_b s' && match s_trace st' with [] => true | _ => false end && forallb (fun f => same_time (s_disk st' f) (s_disk st f)) (files x)
      | _ => false
      end
  | _ => true
  end.
