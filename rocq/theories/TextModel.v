(** Models of the text layer: humdrumline.py and humdrumfilebase.py. *)
From Verif Require Import PyStr LayoutModel.

Definition is_tab (c : ascii) : bool := Ascii.eqb c tab.
Definition not_tab (c : ascii) : bool := negb (is_tab c).

(** The [re.finditer] pattern for a token and its tabs (humdrumline.py:912): skip to the next
    character that is not a tab, take the longest tab-free run and the tabs
    after it. *)
Fixpoint scan_tokens (fuel : nat) (s : str) : list (str * nat) :=
  match fuel with
  | O => []
  | S f =>
      let (_, s1) := span is_tab s in
      match s1 with
      | [] => []
      | _ => let (tok, s2) := span not_tab s1 in
             let (tabs, s3) := span is_tab s2 in
             (tok, length tabs) :: scan_tokens f s3
      end
  end.

(** [HumdrumLine.createTokensFromLine] (humdrumline.py:882-928): the token
    texts, each with the number of tabs after it. *)
Definition createTokensFromLine (text : str) : list (str * nat) :=
  match text with
  | [] => [([], 0)]
  | _ => if starts_with (S_ "!!") text then [(text, 0)] else scan_tokens (length text) text
  end.

(** Steps 1 and 2 of [createLineFromTokens] (humdrumline.py:942-962): make the
    list of tab counts as long as the list of tokens, with no zero except
    possibly the last. *)
Fixpoint set_last0 (l : list nat) : list nat :=
  match l with [] => [] | [_] => [0] | x :: l' => x :: set_last0 l' end.
Fixpoint repair_zeros (l : list nat) : list nat :=
  match l with
  | [] => []
  | [x] => [x]
  | x :: l' => (if x =? 0 then 1 else x) :: repair_zeros l'
  end.
Definition fix_tabs (ntokens : nat) (tabs : list nat) : list nat :=
  let have := length tabs in
  repair_zeros
    (if have <? ntokens then tabs ++ repeat 1 (ntokens - have - 1) ++ [0]
     else if ntokens <? have then set_last0 (firstn ntokens tabs)
     else tabs).

(** [HumdrumLine.createLineFromTokens] (humdrumline.py:940-970). *)
Definition createLineFromTokens (tokens : list str) (tabs : list nat) : str :=
  flat_map (fun tt => fst tt ++ rep tab (snd tt))
           (combine tokens (fix_tabs (length tokens) tabs)).

(** [HumdrumFileBase.readString] (humdrumfilebase.py:335-348), up to the
    analyses: the line texts.  [None] is the IndexError for empty contents.
    The [HumdrumLine] constructor strips one trailing newline, which a line of a
    split text never has. *)
Fixpoint until_eos (ls : list str) : list str :=
  match ls with
  | [] => []
  | l :: ls' => if str_eqb l (S_ "<eos>") then [] else l :: until_eos ls'
  end.
Fixpoint chop_newline (s : str) : str :=
  match s with
  | [] => []
  | [c] => if Ascii.eqb c newline then [] else [c]
  | c :: s' => c :: chop_newline s'
  end.
Definition readString (contents : str) : option (list str) :=
  match contents with
  | [] => None
  | _ => Some (until_eos (split_char newline (chop_newline contents)))
  end.

(** [HumdrumFileBase.__str__] (humdrumfilebase.py:254-260). *)
Definition file_str (lines : list str) : str := join [newline] lines.

(** [HumdrumFileBase.write] (humdrumfilebase.py:2201-2203) with
    [HumdrumLine.write]: each line and a newline. *)
Definition file_write (lines : list str) : str := flat_map (fun l => l ++ [newline]) lines.

(** [createLinesFromTokens] after [analyzeTokens] (humdrumfilebase.py:644-647,
    1288-1290): every line is cut into tokens and put together again. *)
Definition regenerate (lines : list str) : list str :=
  map (fun l => let ts := createTokensFromLine l in
                createLineFromTokens (map fst ts) (map snd ts)) lines.
