(** C67 as tests. *)
From Verif Require Import Base S_Text M_Auto S_Auto M_Rules S_Rules M_Second S_Second.
Open Scope string_scope.
Open Scope list_scope.
Open Scope nat_scope.

Definition normalb (l : list item) (n : str) : bool := existsb (fun d => negb (i_2nd d) && negb (i_extra d) && negb (i_order d) && str_eqb (i_name d) n) l.
Definition same_stem (a b : option str) : bool := match a, b with Some x, Some y => str_eqb x y | None, None => true | _, _ => false end.
Definition raisedb (l : list item) (d e : item) : bool :=
  str_eqb (i_name d) (i_name e) && eqb (i_2nd d) (i_2nd e) && eqb (i_static d) (i_static e) && same_stem (i_stem d) (i_stem e) && eqb (i_extra d) (i_extra e) &&
  (eqb (i_order d) (i_order e) || (i_order d && negb (i_order e) && negb (i_2nd d) && negb (i_extra d) && normalb l (i_name d))).
Fixpoint all2 {A B} (p : A -> B -> bool) (l : list A) (m : list B) : bool :=
  match l, m with [], [] => true | a :: l', b :: m' => p a b && all2 p l' m' | _, _ => false end.

Section Ref.
  Variable always : bool.
  Variable suffixes : list str.
  Variable ex : values -> str -> str.
  Variable split : str -> list dep.
  (** The values, as M_Auto computes them from the prerequisites; [None] cannot happen. *)
  Definition ref_values (f : file) (before : list item) (d : item) (after : list item) : option values :=
    match set_lists always (mksizes 0 0 0) (map seen (before ++ d :: after)) with
    | Some (v, _, _) => Some (mkvalues (at_value (f_name f)) (percent_value (f_name f))
                                (match i_stem d with Some s => s | None => star_value (f_stem f) (f_name f) suffixes end)
                                (less_value (map seen before)) v)
    | None => None
    end.
  Fixpoint ref (f : file) (before rest : list item) : option (list item) :=
    match rest with
    | [] => Some before
    | d :: l => if i_2nd d
                then match ref_values f before d l with
                     | Some a => ref f (before ++ named (i_stem d) (split (ex a (text_of d)))) l
                     | None => None
                     end
                else ref f (before ++ [d]) l
    end.
  Definition t_expand (f : file) (z : sizes) : bool :=
    match ref f [] (f_deps f), expand_deps always suffixes ex split f z with
    | Some out, Some (f', _) => all2 (raisedb out) out (f_deps f')
    | None, _ => true
    | _, None => false
    end.
End Ref.

(** Nothing of $+ and $<. *)
Definition few (ex : values -> str -> str) : Prop :=
  forall a b t, t_at a = t_at b -> t_percent a = t_percent b -> t_star a = t_star b -> v_caret (t_lists a) = v_caret (t_lists b) -> v_bar (t_lists a) = v_bar (t_lists b) ->
    v_qmark (t_lists a) = v_qmark (t_lists b) -> ex a t = ex b t.
(** Nothing is order-only. *)
Definition no_order (l : list item) : Prop := Forall (fun d => i_order d = false) l.
Definition splits_normal (split : str -> list dep) : Prop := forall t, Forall (fun x => d_order x = false) (split t).

Definition extrab (x : dep) (e : item) : bool := str_eqb (d_name x) (i_name e) && eqb (d_order x) (i_order e) && i_extra e && negb (i_2nd e).
Definition t_extra (ex : str -> str) (split : str -> list dep) (global : option str) (f : file) : bool :=
  let v := match f_vars f with Some v => v | None => if f_target f then global else None end in
  let es := match v with Some t => split (ex t) | None => [] end in
  let es' := if existsb (fun x => str_eqb (d_name x) (f_name f)) es then [] else es in
  let l := f_deps (snap_file ex split global f) in
  all2 (raisedb []) (f_deps f) (firstn (length (f_deps f)) l) && all2 extrab es' (skipn (length (f_deps f)) l).
