(** What the profile says as a JSON value, and the texts for which it is written correctly. *)
From Coq Require Import ZArith.
From Verif Require Import Base M_Json S_Json.
Open Scope string_scope.
Open Scope list_scope.
Open Scope nat_scope.

(** Text for which escape_print is enough, and text that needs no escapes. *)
Definition printable (c : ascii) : bool := 32 <=? nat_of_ascii c.
Definition name_ok (s : str) : Prop := forallb (fun c => printable c || (c =?c ascii_of_nat 8) || (c =?c c_tab) || (c =?c c_nl) || (c =?c c_cr)) s = true.
Definition raw_ok (s : str) : Prop := forallb (fun c => printable c && negb (c =?c c_dq) && negb (c =?c c_bslash)) s = true.
(** Nanoseconds are fewer than a second. *)
Definition time_ok (t : option (nat * nat)) : Prop := match t with Some (_, ns) => (N.of_nat ns < 1000000000)%N | None => True end.

(** Numbers: decimal, without superfluous zeros; [k] digits; with a sign; seconds with nine digits after the point. *)
Definition numeral (n : nat) : ascii := ascii_of_nat (48 + n mod 10).
Fixpoint decimal_of (fuel n : nat) : str := match fuel with 0 => [] | S k => (if n <? 10 then [] else decimal_of k (n / 10)) ++ [numeral n] end.
Definition decimal (n : nat) : str := decimal_of (S n) n.
Fixpoint low (k n : nat) : str := match k with 0 => [] | S k' => low k' (n / 10) ++ [numeral n] end.
Definition integer (z : Z) : str := if (z <? 0)%Z then c_minus :: decimal (Z.to_nat (- z)) else decimal (Z.to_nat z).
Definition seconds (s ns : nat) : str := decimal s ++ c_dot :: low 9 ns.

(** Reading digits; with a sign. *)
Definition read (s : str) : nat := fold_left (fun a c => 10 * a + (nat_of_ascii c - 48)) s 0.
Definition read_int (s : str) : Z := match s with c :: r => if c =?c c_minus then (- Z.of_nat (read r))%Z else Z.of_nat (read s) | [] => 0%Z end.

(** The JSON value: names are shown, times are numbers of seconds or null. *)
Definition stamp_json (t : option (nat * nat)) : json := match t with None => JWord (s2l "null") | Some (s, ns) => JNumber (seconds s ns) end.
Definition names_json (l : list str) : list json := map (fun s => JString (shown s)) l.
Definition target_ok (p : target) : Prop :=
  name_ok (p_name p) /\ match p_file p with Some f => raw_ok f | None => True end /\ Forall name_ok (p_calls p) /\
  time_ok (p_start p) /\ time_ok (p_deps p) /\ time_ok (p_recipe p) /\ time_ok (p_end p).
(** A target. *)
Definition target_json (p : target) : json :=
  JObject [(s2l "name", JString (shown (p_name p))); (s2l "file", match p_file p with Some f => JString f | None => JWord (s2l "null") end);
    (s2l "line", JNumber (decimal (p_line p))); (s2l "start", stamp_json (p_start p)); (s2l "deps", stamp_json (p_deps p));
    (s2l "recipe", stamp_json (p_recipe p)); (s2l "end", stamp_json (p_end p)); (s2l "depends", JList (names_json (p_calls p)))].
(** The profile. *)
Definition profile_ok (g : profile) : Prop :=
  match g_parent g with Some (_, Some t) => name_ok t | _ => True end /\ raw_ok (g_creator g) /\ Forall name_ok (g_argv g) /\
  raw_ok (g_status g) /\ raw_ok (g_dir g) /\ Forall name_ok (g_goals g) /\ Forall target_ok (g_targets g) /\ time_ok (g_start g) /\ time_ok (g_end g).
Definition profile_json (g : profile) : json :=
  JObject ([(s2l "version", JString (s2l "1.0.0")); (s2l "pid", JNumber (decimal (g_pid g)))] ++
    match g_parent g with
    | Some (pid, Some t) => [(s2l "parent", JObject [(s2l "pid", JNumber (decimal pid)); (s2l "target", JString (shown t))])]
    | _ => []
    end ++
    [(s2l "creator", JString (g_creator g)); (s2l "argv", JList (names_json (g_argv g))); (s2l "jobs", JNumber (integer (g_jobs g)));
     (s2l "server", JWord (if g_server g then s2l "true" else s2l "false")); (s2l "status", JString (g_status g));
     (s2l "start", stamp_json (g_start g)); (s2l "end", stamp_json (g_end g)); (s2l "directory", JString (g_dir g));
     (s2l "entry", JList (names_json (g_goals g)))] ++ [(s2l "targets", JList (map target_json (g_targets g)))]).
