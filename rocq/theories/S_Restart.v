(** What remaking makefiles is to do. *)
From Verif Require Import Base M_Expand M_Flags M_Restart.
Open Scope string_scope.
Open Scope list_scope.
Open Scope nat_scope.

(** ** Command lines on which the only words that start with -f are those that give makefiles, and no makefile is given otherwise. *)
Definition not_f (w : str) : Prop := forall s, w <> s2l "-f" ++ s.
Definition no_dash (w : str) : Prop := w = s2l "-" \/ forall s, w <> s2l "-" ++ s.
(** Short options in one word: [Some b], whether the next word is an argument; [None]: -f or no option. *)
Fixpoint short_takes (cs : str) : option bool :=
  match cs with
  | [] => Some false
  | c :: r => if c =?c "f"%char then None
              else match find_short c with
                   | None => None
                   | Some s => match arg_of s, r with
                               | no_argument, _ => short_takes r
                               | _, _ :: _ => Some false
                               | optional_argument, [] => Some false
                               | required_argument, [] => Some true
                               end
                   end
  end.
Definition long_takes (w : str) : option bool :=
  let '(n, a) := match cut_at c_eq w with Some (n, a) => (n, Some a) | None => (w, None) end in
  match find_long n with
  | None => None
  | Some (h, c) => if c =? ch "f" then None
                   else match h, a with required_argument, None => Some true | _, _ => Some false end
  end.
Definition takes (w : str) : option bool :=
  match w with
  | a :: b :: r => if negb (a =?c c_minus) then None else if b =?c c_minus then (match r with [] => None | _ => long_takes r end) else short_takes (b :: r)
  | _ => None
  end.
(** The words, with the makefiles that they name. *)
Inductive aligned : list str -> list str -> Prop :=
| al_end : aligned [] []
| al_word w ws fs : no_dash w -> aligned ws fs -> aligned (w :: ws) fs
| al_stop ws : Forall not_f ws -> aligned (s2l "--" :: ws) []
| al_file n ws fs : aligned ws fs -> aligned (s2l "-f" :: n :: ws) (n :: fs)
| al_joined n ws fs : n <> [] -> aligned ws fs -> aligned ((s2l "-f" ++ n) :: ws) (n :: fs)
| al_option w ws fs : takes w = Some false -> aligned ws fs -> aligned (w :: ws) fs
| al_argument w a ws fs : takes w = Some true -> not_f a -> aligned ws fs -> aligned (w :: a :: ws) fs.
(** The same words with other makefiles. *)
Inductive renamed : list str -> list str -> list str -> Prop :=
| rn_end : renamed [] [] []
| rn_other w ws ws' fs : not_f w -> renamed ws fs ws' -> renamed (w :: ws) fs (w :: ws')
| rn_file n m ws ws' fs : renamed ws fs ws' -> renamed (s2l "-f" :: n :: ws) (m :: fs) (s2l "-f" :: m :: ws')
| rn_joined n m ws ws' fs : n <> [] -> renamed ws fs ws' -> renamed ((s2l "-f" ++ n) :: ws) (m :: fs) ((s2l "-f" ++ m) :: ws').

(** ** The result of updating goals. *)
(** Some recipe line has been started for the goal of the last call, in it or before (the last call first). *)
Definition worked (g : goal) (h : list event) : Prop := exists e, In e h /\ g_id (e_goal e) = g_id g /\ o_started (e_obs e) = true.
(** What a call says about the whole: [h] are the calls before. *)
Inductive says (rebuilding : bool) (h : list event) (e : event) : ust -> Prop :=
| says_bad : (o_fail (e_obs e) = true \/ o_updated (e_obs e) = true) -> o_status (e_obs e) <> u_success -> says rebuilding h e (o_status (e_obs e))
| says_done : o_updated (e_obs e) = true -> o_status (e_obs e) = u_success -> o_newtime (e_obs e) = true -> worked (e_goal e) (e :: h) ->
    (rebuilding = true -> k_print (e_modes e) = false /\ k_question (e_modes e) = false) -> says rebuilding h e u_success.
(** The first failure or question counts, else the last that is said. *)
Inductive result (rebuilding : bool) : list event -> ust -> Prop :=
| res_none : result rebuilding [] u_none
| res_fixed h e s : result rebuilding h s -> (s = u_question \/ s = u_failed) -> result rebuilding (e :: h) s
| res_says h e s s' : result rebuilding h s -> s = u_success \/ s = u_none -> says rebuilding h e s' -> result rebuilding (e :: h) s'
| res_silent h e s : result rebuilding h s -> s = u_success \/ s = u_none -> (forall s', ~ says rebuilding h e s') -> result rebuilding (e :: h) s.
(** A goal is done with: all its entries were found updated, or a call has ended its pass. *)
Definition stops (rebuilding keep_going : bool) (e : event) : Prop :=
  (o_fail (e_obs e) = true \/ o_updated (e_obs e) = true) /\
  ((rebuilding = true /\ g_dontcare (e_goal e) = true /\ o_status (e_obs e) = u_success /\ o_newtime (e_obs e) = true) \/
   (rebuilding = false /\ k_question (e_modes e) = true /\ keep_going = false /\ o_status (e_obs e) <> u_success)).
Definition done (rebuilding keep_going : bool) (h : list event) (g : goal) : Prop :=
  (forall f cmd, In (f, cmd) (g_entries g) -> exists e, In e h /\ g_id (e_goal e) = g_id g /\ e_file e = f /\ o_updated (e_obs e) = true) \/
  (exists e, In e h /\ g_id (e_goal e) = g_id g /\ stops rebuilding keep_going e).

(** ** The order of the calls. *)
Inductive sub {A} : list A -> list A -> Prop :=
| sub_nil l : sub [] l
| sub_take a s l : sub s l -> sub (a :: s) (a :: l)
| sub_skip a s l : sub s l -> sub s (a :: l).
(** What is called: goal, entry, whether it is a goal of the command line. *)
Definition call_of (e : event) : nat * nat * bool := (g_id (e_goal e), e_file e, e_cmd e).
Definition calls (l : list goal) : list (nat * nat * bool) := flat_map (fun g => map (fun x => (g_id g, fst x, snd x)) (g_entries g)) l.
(** Each call is answered by [upd], given the calls before. *)
Definition honest (upd : list event -> nat -> modes -> obs) (h : list event) : Prop := forall h1 e h2, h = h1 ++ e :: h2 -> e_obs e = upd h2 (e_file e) (e_modes e).
(** A goal that is looked at in two passes was not up to date in the first of them. *)
Definition no_repeat (ps : list (list event)) : Prop := forall a p b p' c e e', ps = a ++ p :: b ++ p' :: c -> In e p -> In e' p' -> g_id (e_goal e') = g_id (e_goal e) ->
  exists x, In x p /\ g_id (e_goal x) = g_id (e_goal e) /\ o_updated (e_obs x) = false.
