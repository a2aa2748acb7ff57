(** C11: $(abspath). *)
From Verif Require Import Base M_Text S_Text P_Text M_Path S_Path P_Path.
Open Scope string_scope.
Open Scope list_scope.
Open Scope nat_scope.

(** The result is the name made of the components reached by walking from the working
    directory (or the root), or nothing if it does not fit. *)
Theorem C11_abspath : forall limit cs name,
  Forall canonical cs -> length (render cs) < limit -> name <> [] ->
  let from := match name with c :: _ => if c =?c c_slash then [] else cs | [] => cs end in
  let l := resolve from (components name) in
  Forall canonical l /\
  (abspath limit (Some (render cs)) name = Ok (Some (render l)) \/
   abspath limit (Some (render cs)) name = Ok None /\
   limit <= length (render from) + length name + 1) /\
  (length (render from) + length name + 1 < limit ->
   abspath limit (Some (render cs)) name = Ok (Some (render l))).
Proof.
  intros limit cs name Hc L Hn. cbv zeta.
  assert (Eo : match name with c :: _ => if c =?c c_slash then [] else cs | [] => cs end = origin_of cs name)
    by (destruct name as [|c n]; reflexivity).
  rewrite Eo. split.
  - apply resolve_canonical; [|apply components_proper].
    unfold origin_of. destruct (is_absolute name); [constructor|exact Hc].
  - assert (B : (if is_absolute name then length name else length (render cs) + 1 + length name)
                <= length (render (origin_of cs name)) + length name + 1).
    { unfold origin_of. destruct (is_absolute name); lia. }
    destruct (abspath_ok limit cs name Hc L Hn) as [[I _]|[I1 I2]].
    + split; [left; exact I|intros _; exact I].
    + split; [right; split; [exact I1|lia]|intros H; lia].
Qed.
Print Assumptions C11_abspath.
Example C11_abspath_ex :
  Forall canonical [s2l "usr"; s2l "src"] /\ render [s2l "usr"; s2l "src"] = "/usr/src" /\
  abspath 4096 (Some (s2l "/usr/src")) "..//lib/./x/../y/" = Ok (Some (s2l "/usr/lib/y")) /\
  abspath 4096 (Some (s2l "/usr/src")) "/../a" = Ok (Some (s2l "/a")) /\
  abspath 4096 (Some (s2l "/usr/src")) "../.." = Ok (Some (s2l "/")).
Proof.
  split; [|repeat split; reflexivity].
  repeat constructor; try discriminate; intros H; simpl in H;
    repeat (destruct H as [H|H]; [discriminate|]); exact H.
Qed.

(** A result is its own absolute name, wherever it is taken from. *)
Theorem C11_abspath_idempotent : forall limit cs name r,
  Forall canonical cs -> length (render cs) < limit ->
  abspath limit (Some (render cs)) name = Ok (Some r) ->
  forall cwd, abspath limit cwd r = Ok (Some r).
Proof.
  intros limit cs name r Hc L H cwd.
  assert (Hn : name <> []) by (intros ->; discriminate).
  destruct (abspath_ok limit cs name Hc L Hn) as [[I1 I2]|[I1 _]]; [|congruence].
  rewrite I1 in H. injection H as <-. apply abspath_idem; [|exact I2].
  apply resolve_canonical; [|apply components_proper].
  unfold origin_of. destruct (is_absolute name); [constructor|exact Hc].
Qed.
Print Assumptions C11_abspath_idempotent.
Example C11_abspath_idempotent_ex :
  abspath 4096 None "/usr/lib/y" = Ok (Some (s2l "/usr/lib/y")).
Proof. reflexivity. Qed.

(** The function maps the words, dropping those that do not fit. *)
Theorem C11_func_abspath : forall limit cs a, Forall canonical cs -> length (render cs) < limit ->
  exists f, func_abspath limit (Some (render cs)) a = Ok (unwords (somes (map f (words a)))) /\
    forall w, In w (words a) ->
      f w = None \/
      f w = Some (render (resolve (match w with c :: _ => if c =?c c_slash then [] else cs | [] => cs end)
                                  (components w))).
Proof.
  intros limit cs a Hc L. exists (abs_result limit cs). split; [apply func_abspath_ok; assumption|].
  intros w Hw. unfold abs_result. destruct (length w <? limit); [|left; reflexivity].
  assert (Hn : w <> []) by (eapply words_props; exact Hw).
  destruct (C11_abspath limit cs w Hc L Hn) as [_ [[->|[-> _]] _]]; [right|left]; reflexivity.
Qed.
Print Assumptions C11_func_abspath.
Example C11_func_abspath_ex :
  func_abspath 4096 (Some (s2l "/w")) " a  ../b " = Ok (s2l "/w/a /b").
Proof. reflexivity. Qed.

(** Without a working directory (getcwd failed at startup: src/main.c:1243 and 1522 make
    starting_directory the empty string, not NULL) the byte in front of the buffer is read. *)
Theorem C11_no_cwd_refuted : exists name, abspath 4096 (Some []) name = UB.
Proof. exists (s2l "a"). reflexivity. Qed.
Print Assumptions C11_no_cwd_refuted.
