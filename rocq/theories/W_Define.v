(** C70, computed for generated definitions.  Nothing is proved of the model here; Properties_DefineCheck says that all of these tests must succeed. *)
From Coq Require Import NArith.
From Verif Require Import Base M_Define S_Define S_DefineCheck W_Random.
Open Scope string_scope.
Open Scope list_scope.
Open Scope nat_scope.

Definition w_lines : list str := map s2l ["a"; ""; " x = 1"; "defined"; "endefx y"; "	define"; "	endef"; "# define"; "endef# x"; "define: y"; "override define z"; "a\"; "define"; "endef"; "x endef"; "efine"; "endif";
  "a long line so that the buffer has to grow again and again and again and again and again and again and again."].
Definition w_opens : list str := map s2l ["define"; "define x"; "  define y ="; "define	z"; " 	 define"; "define \"; "definex"].
Definition w_ends : list str := map s2l ["endef"; "endef"; "  endef"; "endef "; "endef x"; " endef	 "; "endef # y"; "endefx"; "endef $(x) \"].
Fixpoint w_tree (n depth : nat) (s : N) : tree * N :=
  match n with
  | 0 => (End, s)
  | S n' =>
      let '(k, s) := roll 8 s in
      if k =? 0 then (End, s)
      else if (k <? 5) || (depth =? 0) then let '(l, s) := pick [] w_lines s in let '(t, s) := w_tree n' depth s in (Single l t, s)
      else let '(d, s) := pick [] w_opens s in let '(a, s) := w_tree n' (depth - 1) s in let '(e, s) := pick [] w_ends s in let '(t, s) := w_tree n' depth s in (Block d a e t, s)
  end.
Definition one_define (s : N) : bool :=
  let '(t, s) := w_tree 5 3 s in
  let '(e, s) := pick [] w_ends s in
  let '(rest, s) := several 0 3 (pick [] w_lines) s in
  let '(p, s) := chance 50 s in
  let '(q, s) := chance 20 s in
  t_define p (if q then c_sp else c_tab) t e rest.
Definition defines_hold (l : list N) : bool := forallb one_define l.
Definition usable (s : N) : bool := let '(t, s) := w_tree 5 3 s in good c_tab t && (2 <=? length (flat t)).
Example defines_1 : unit. Proof. computes (defines_hold (seeds 1500 17)). Qed.
Example defines_2 : unit. Proof. computes (defines_hold (seeds 1500 40000017)). Qed.
Example many : unit. Proof. computes (100 <=? length (filter usable (seeds 600 17))). Qed.
Example deep : unit. Proof. computes (existsb (fun s => let '(t, _) := w_tree 5 3 s in good c_tab t && match t with Block _ (Block _ (Single _ _) _ _) _ _ => true | _ => false end) (seeds 1500 17)). Qed.
Example define_small : defines_hold (seeds 3 5) = true. Proof. vm_compute. reflexivity. Qed.
