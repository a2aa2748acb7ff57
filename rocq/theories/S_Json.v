(** JSON (RFC 8259).  The escapes of code points stay as they are written; bytes from 128 are accepted in
    strings. *)
From Verif Require Import Base.
Open Scope string_scope.
Open Scope list_scope.
Open Scope nat_scope.

Inductive token := TOpen | TClose | TList | TEnd | TColon | TComma | TString (s : str) | TNumber (s : str) | TWord (s : str).
Definition within (lo hi : nat) (c : ascii) : bool := (lo <=? nat_of_ascii c) && (nat_of_ascii c <=? hi).
Definition digit (c : ascii) : bool := within 48 57 c.
Definition hexdigit (c : ascii) : bool := digit c || within 65 70 c || within 97 102 c.
(** Numbers: an optional minus sign, no superfluous zero, optional fraction and exponent. *)
Fixpoint after_digits (s : str) : str := match s with c :: r => if digit c then after_digits r else s | [] => [] end.
Definition digits1 (s : str) : option str := match s with c :: r => if digit c then Some (after_digits r) else None | [] => None end.
Definition exponent (s : str) : bool :=
  match s with
  | [] => true
  | c :: r =>
      if (c =?c "e") || (c =?c "E") then
        let r := match r with d :: r' => if (d =?c c_plus) || (d =?c c_minus) then r' else r | [] => [] end in
        match digits1 r with Some [] => true | _ => false end
      else false
  end.
Definition number (s : str) : bool :=
  let s := match s with c :: r => if c =?c c_minus then r else s | [] => [] end in
  match s with
  | c :: r =>
      if digit c then
        let r := if c =?c "0" then r else after_digits r in
        match r with
        | d :: r' => if d =?c c_dot then match digits1 r' with Some r'' => exponent r'' | None => false end else exponent r
        | [] => true
        end
      else false
  | [] => false
  end.
Definition numeric (c : ascii) : bool := digit c || (c =?c c_plus) || (c =?c c_minus) || (c =?c c_dot) || (c =?c "e") || (c =?c "E").
Definition letter (c : ascii) : bool := within 97 122 c.
Definition word (s : str) : bool := str_eqb s (s2l "true") || str_eqb s (s2l "false") || str_eqb s (s2l "null").

Inductive mode := Idle | Text (acc : str) | Escape (acc : str) | Hex (n : nat) (acc : str) | Num (acc : str) | Word (acc : str).
Definition put (t : token) (r : option (list token)) : option (list token) := match r with Some l => Some (t :: l) | None => None end.
Fixpoint lex (m : mode) (t : str) : option (list token) :=
  match t with
  | [] =>
      match m with
      | Idle => Some []
      | Num a => if number (rev a) then Some [TNumber (rev a)] else None
      | Word a => if word (rev a) then Some [TWord (rev a)] else None
      | _ => None
      end
  | c :: t' =>
      let idle :=
        if (c =?c c_sp) || (c =?c c_tab) || (c =?c c_nl) || (c =?c c_cr) then lex Idle t'
        else if c =?c c_lbrace then put TOpen (lex Idle t')
        else if c =?c c_rbrace then put TClose (lex Idle t')
        else if c =?c "[" then put TList (lex Idle t')
        else if c =?c "]" then put TEnd (lex Idle t')
        else if c =?c c_colon then put TColon (lex Idle t')
        else if c =?c c_comma then put TComma (lex Idle t')
        else if c =?c c_dq then lex (Text []) t'
        else if digit c || (c =?c c_minus) then lex (Num [c]) t'
        else if letter c then lex (Word [c]) t'
        else None in
      match m with
      | Idle => idle
      | Text a =>
          if c =?c c_dq then put (TString (rev a)) (lex Idle t')
          else if c =?c c_bslash then lex (Escape a) t'
          else if nat_of_ascii c <? 32 then None
          else lex (Text (c :: a)) t'
      | Escape a =>
          if (c =?c c_dq) || (c =?c c_bslash) || (c =?c c_slash) then lex (Text (c :: a)) t'
          else if c =?c "b" then lex (Text (ascii_of_nat 8 :: a)) t'
          else if c =?c "f" then lex (Text (ascii_of_nat 12 :: a)) t'
          else if c =?c "n" then lex (Text (c_nl :: a)) t'
          else if c =?c "r" then lex (Text (c_cr :: a)) t'
          else if c =?c "t" then lex (Text (c_tab :: a)) t'
          else if c =?c "u" then lex (Hex 4 ("u"%char :: c_bslash :: a)) t'
          else None
      | Hex n a => if hexdigit c then match n with S (S n') => lex (Hex (S n') (c :: a)) t' | _ => lex (Text (c :: a)) t' end else None
      | Num a => if numeric c then lex (Num (c :: a)) t' else if number (rev a) then put (TNumber (rev a)) idle else None
      | Word a => if letter c then lex (Word (c :: a)) t' else if word (rev a) then put (TWord (rev a)) idle else None
      end
  end.

Inductive json := JString (s : str) | JNumber (s : str) | JWord (s : str) | JList (l : list json) | JObject (l : list (str * json)).
Inductive value : list token -> json -> Prop :=
| v_string s : value [TString s] (JString s)
| v_number s : value [TNumber s] (JNumber s)
| v_word s : value [TWord s] (JWord s)
| v_empty : value [TList; TEnd] (JList [])
| v_list ts l : items ts l -> value (TList :: ts ++ [TEnd]) (JList l)
| v_none : value [TOpen; TClose] (JObject [])
| v_object ts l : members ts l -> value (TOpen :: ts ++ [TClose]) (JObject l)
with items : list token -> list json -> Prop :=
| i_one ts v : value ts v -> items ts [v]
| i_more ts v ts' l : value ts v -> items ts' l -> items (ts ++ TComma :: ts') (v :: l)
with members : list token -> list (str * json) -> Prop :=
| m_one k ts v : value ts v -> members (TString k :: TColon :: ts) [(k, v)]
| m_more k ts v ts' l : value ts v -> members ts' l -> members ((TString k :: TColon :: ts) ++ TComma :: ts') ((k, v) :: l).
(** The tokens of a value. *)
Fixpoint flatten (v : json) : list token :=
  match v with
  | JString s => [TString s]
  | JNumber s => [TNumber s]
  | JWord s => [TWord s]
  | JList l => TList :: (fix go l := match l with [] => [] | [v] => flatten v | v :: l' => flatten v ++ TComma :: go l' end) l ++ [TEnd]
  | JObject l => TOpen :: (fix go l := match l with [] => [] | [(k, v)] => TString k :: TColon :: flatten v
                                      | (k, v) :: l' => (TString k :: TColon :: flatten v) ++ TComma :: go l' end) l ++ [TClose]
  end.
(** A text is a JSON document for a value. *)
Definition document (t : str) (v : json) : Prop := exists ts, lex Idle t = Some ts /\ value ts v.

(** Some control characters are shown as spaces. *)
Definition shown (s : str) : str :=
  map (fun c => if (c =?c ascii_of_nat 8) || (c =?c c_tab) || (c =?c c_nl) || (c =?c c_cr) then c_sp else c) s.
