(** C22 and C23, computed for generated lines.  Nothing is proved of the model here; Properties_CmdCheck says that all of these tests must succeed. *)
From Coq Require Import NArith.
From Verif Require Import Base S_Cmd M_Cmd S_CmdCheck W_Random.
Open Scope string_scope.
Open Scope list_scope.
Open Scope nat_scope.

Definition w_bits : list str :=
  map s2l ["a"; "cp"; " "; " "; "b c"; "="; "x=1 "; "'"; "'"; "''"; "\"; "\\"; "\ "; "\'"; "$"; "#"; ";"; "&"; "'a b'"; "exec "; "test"; "if "; "cd"; " '' "; "@"; "-"; "+"; "*"; "~"; "|"] ++
  [[c_tab]; [c_nl]; [c_nl]; [c_bslash; c_nl]; [c_bslash; c_nl; c_sp]; [c_sp; c_bslash; c_nl]; [c_dq]; [c_dq]; s2l "'" ++ [c_nl]; [c_nl] ++ s2l " @-c"; [c_bslash; c_bslash; c_nl]].
Definition w_plain : list str := map s2l ["a"; "cp"; " "; "  "; "x=1"; "b"; "exec"; "test"; "if"; "-o"; "cd"; "/"] ++ [[c_tab]].
Definition text_of (bits : list str) (n : N) (s : N) : str * N := let '(l, s) := several 1 n (pick [] bits) s in (concat l, s).
Definition w_shells : list (option str) := [None; Some (s2l "/bin/sh"); Some (s2l "/bin/sh"); Some (s2l "/bin/sh"); Some (s2l "/usr/bin/env bash"); Some (s2l "/x/rksh"); Some (s2l "perl"); Some (s2l "/o{pt}/sh"); Some (s2l "C:\a\bash"); Some (s2l "./a'sh"); Some (s2l "command sh")].
Definition w_flags : list (option str) := [None; Some (s2l "-c"); Some (s2l "-ec"); Some (s2l "-e  -c"); Some (s2l ""); Some (s2l "-c;")].
Definition w_ifs : list (option str) := [None; None; None; Some (s2l " "); Some [c_sp; c_tab; c_nl]; Some (s2l ":")].
Definition one_line (s : N) : bool :=
  let '(line, s) := text_of w_bits 8 s in
  let '(os, s) := chance 25 s in
  let '(ped, s) := chance 30 s in
  let '(restp, s) := chance 75 s in
  let '(sh, s) := pick None w_shells s in
  let '(fl, s) := pick None w_flags s in
  let '(ifs, s) := pick None w_ifs s in
  t_construct os ped line restp sh fl ifs.
Definition w_direct : list str :=
  map s2l ["a"; "cp"; " "; " "; "b c"; "x=1 "; "'"; "''"; "\\"; "\ "; "\'"; "'a b'"; "exec "; "exec"; "test"; "if "; "exit"; " '' "; "'x"; "= "; "x''=";"'a'=1 "; "a=b"; "\"; "~"; "{"] ++ [[c_tab]; [c_nl]; [c_bslash; c_nl]; [c_bslash; c_nl; c_sp]; [c_sp; c_bslash; c_nl]; s2l "'" ++ [c_nl]; [c_dq]; [c_sq; c_bslash; c_nl; c_sq]].
Definition direct_line (s : N) : bool :=
  let '(line, s) := text_of w_direct 6 s in
  let '(restp, s) := chance 75 s in
  t_construct false false line restp (Some (s2l "/bin/sh")) (Some (s2l "-c")) None.
Definition plain_line (s : N) : bool := let '(line, s) := text_of w_plain 8 s in let '(os, s) := chance 30 s in let '(restp, s) := chance 60 s in t_plain os false line restp.
Definition empty_line (s : N) : bool :=
  let '(line, s) := text_of w_plain 3 s in
  let '(y, s) := text_of w_bits 3 s in
  let '(sh, s) := pick None w_shells s in
  let '(fl, s) := pick None w_flags s in
  let '(ifs, s) := pick None w_ifs s in
  t_empty false line y (or_else (s2l "bash") sh) fl ifs.
Definition lines_hold (l : list N) : bool := forallb one_line l.
Definition direct_hold (l : list N) : bool := forallb direct_line l.
Definition plain_hold (l : list N) : bool := forallb plain_line l.
Definition empty_hold (l : list N) : bool := forallb empty_line l.
Example lines_1 : unit. Proof. computes (lines_hold (seeds 1500 1)). Qed.
Example lines_2 : unit. Proof. computes (lines_hold (seeds 1500 90000001)). Qed.
Example direct_1 : unit. Proof. computes (direct_hold (seeds 1500 2)). Qed.
Example plain_1 : unit. Proof. computes (plain_hold (seeds 500 3)). Qed.
Example empty_1 : unit. Proof. computes (empty_hold (seeds 200 4)). Qed.
Example lines_few : lines_hold (seeds 8 77) = true. Proof. vm_compute. reflexivity. Qed.
Example direct_few : direct_hold (seeds 8 77) = true. Proof. vm_compute. reflexivity. Qed.
