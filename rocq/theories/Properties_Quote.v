(** C18, C19: backslashes in makefile text (src/read.c, src/misc.c). *)
From Verif Require Import Base M_Quote S_Quote P_Quote.

(** The three searches implement the one-pass reading [unq] of S_Quote. *)
Theorem C19_search_halves_backslashes :
  (forall stop s, stop <> c_bslash ->
     find_char_unquote s stop =
     let (b, r) := unq (fun c => c =?c stop) 0 s in mkfound b r) /\
  (forall s, find_percent_cached s = Some (find_percent s)) /\
  (forall stop var s, stop c_bslash = false -> (var = true -> ~ In c_dollar s) ->
     find_map_unquote stop var s = let (b, r) := unq stop 0 s in Some (mkfound b r)).
Proof.
  exact (conj find_char_unquote_spec (conj find_percent_cached_eq find_map_unquote_spec)).
Qed.
Print Assumptions C19_search_halves_backslashes.

Example C19_search_case :
  find_char_unquote (s2l "a\\\%b\\%c") c_percent = mkfound (s2l "a\%b\") (Some (s2l "%c")).
Proof. reflexivity. Qed.

(** Quoting a text and searching gives the text back and no special character. *)
Theorem C19_quote_then_search :
  (forall stop s, stop <> c_bslash ->
     find_char_unquote (quote (fun c => c =?c stop) s) stop = mkfound s None) /\
  (forall stop s, stop c_bslash = false ->
     find_map_unquote stop false (quote stop s) = Some (mkfound s None)).
Proof. exact (conj find_char_quote find_map_quote). Qed.
Print Assumptions C19_quote_then_search.

(** A quoted text followed by an unquoted special character is split exactly there. *)
Theorem C19_quoted_prefix_then_special :
  (forall stop pre post, stop <> c_bslash ->
     find_char_unquote (quote_open (fun c => c =?c stop) pre ++ stop :: post) stop
     = mkfound pre (Some (stop :: post))) /\
  (forall stop pre x post, stop c_bslash = false -> stop x = true ->
     find_map_unquote stop false (quote_open stop pre ++ x :: post)
     = Some (mkfound pre (Some (x :: post)))).
Proof. exact (conj find_char_quote_open find_map_quote_open). Qed.
Print Assumptions C19_quoted_prefix_then_special.

Example C19_quote_case :
  quote_open (fun c => c =?c c_percent) (s2l "50\%\") = s2l "50\\\%\\".
Proof. reflexivity. Qed.

(** With MAP_VARIABLE a complete reference is passed over untouched. *)
Theorem C19_references_are_opaque :
  forall stop o cl body s,
  (o = c_lparen /\ cl = c_rparen) \/ (o = c_lbrace /\ cl = c_rbrace) ->
  balanced o cl body ->
  find_map_unquote stop true (c_dollar :: o :: body ++ cl :: s) =
  option_map (fun f => mkfound (c_dollar :: o :: body ++ cl :: f_before f) (f_rest f))
             (find_map_unquote stop true s).
Proof. exact find_map_ref. Qed.
Print Assumptions C19_references_are_opaque.

Example C19_reference_case :
  find_map_unquote (fun c => c =?c c_colon) true (s2l "$(a:.c=.o) x\:y:z")
  = Some (mkfound (s2l "$(a:.c=.o) x:y") (Some (s2l ":z"))).
Proof. reflexivity. Qed.

(** unescape_char undoes quoting. *)
Theorem C19_unescape_quote :
  forall c s, c <> c_bslash -> unescape_char (quote (fun d => d =?c c) s) c = s.
Proof. exact unescape_quote0. Qed.
Print Assumptions C19_unescape_quote.

(** Line joining is [join_lines] of the lines of the text (S_Quote). *)
Theorem C18_collapse_joins_lines :
  forall posix s, collapse_continuations posix s = join_lines posix false [] (split_lines s).
Proof. exact collapse_spec. Qed.
Print Assumptions C18_collapse_joins_lines.

Theorem C18_single_line_unchanged :
  forall posix s, ~ In c_nl s -> collapse_continuations posix s = s.
Proof. exact collapse_nonl. Qed.
Print Assumptions C18_single_line_unchanged.

(** If every newline is continued the result is a single line; if none is, and no line ends
    in a backslash, nothing changes. *)
Theorem C18_all_continued_gives_one_line :
  forall posix s, all_continued (split_lines s) -> ~ In c_nl (collapse_continuations posix s).
Proof. exact collapse_no_nl. Qed.
Print Assumptions C18_all_continued_gives_one_line.

(** Only backslashes next to newlines and blanks next to a join are touched: every other
    character of the text survives, in order. *)
Theorem C18_only_blanks_backslashes_newlines_change :
  forall posix s,
  filter solid (collapse_continuations posix s) = filter solid s.
Proof. exact collapse_solid. Qed.
Print Assumptions C18_only_blanks_backslashes_newlines_change.

Example C18_collapse_case :
  collapse_continuations false
    (s2l "a" ++ [c_sp; c_bslash; c_nl; c_tab] ++ s2l "b" ++ [c_bslash; c_bslash; c_nl] ++ s2l "c")
  = s2l "a b" ++ [c_bslash; c_nl] ++ s2l "c".
Proof. reflexivity. Qed.
