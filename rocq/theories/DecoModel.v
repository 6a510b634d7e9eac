(** The system decoration of a Humdrum file: staff groups written into it
    (humdrumwriter.py) and read from it (humdrumfile.py). *)
From Coq Require Import List Arith NArith Bool Ascii String.
From Verif Require Import PyStr.
Import ListNotations.
Local Open Scope list_scope.

(** Symbols of staff groups; [NoSym]: none. *)
Inductive symbol := Brace | Bracket | Square | Line | NoSym.

(** Trees of staff groups as getStaffGroupTrees makes them: a list of trees, each with its
    symbol, whether bar lines go through, the set of its staff numbers (as the sorted list)
    and its subgroups; then the trees after it. *)
Inductive forest :=
| FNil
| FTree (s : symbol) (bar : bool) (staves : list N) (kids rest : forest).

(** m21GroupSymbolToHumdrumDecoGroupStyleStart, ...Stop (m21convert.py:96-108);
    humdrumwriter.py:875-886. *)
Definition open_of (s : symbol) : str :=
  match s with Brace => S_ "{" | Bracket => S_ "[" | Square => S_ "<" | Line | NoSym => [] end.
Definition close_of (s : symbol) : str :=
  match s with Brace => S_ "}" | Bracket => S_ "]" | Square => S_ ">" | Line | NoSym => [] end.
Definition pre_string (s : symbol) (bar : bool) : str := open_of s ++ (if bar then S_ "(" else []).
Definition post_string (s : symbol) (bar : bool) : str := (if bar then S_ ")" else []) ++ close_of s.

Definition staff_text (n : N) : str := "s"%char :: show_N n.
(** A comma before all but the first of the enumeration (humdrumwriter.py:907-909, 921-928). *)
Fixpoint staves_text (i : nat) (l : list N) : str :=
  match l with
  | [] => []
  | n :: l' => (if 0 <? i then S_ "," else []) ++ staff_text n ++ staves_text (S i) l'
  end.
Definition memN (n : N) (l : list N) : bool := existsb (N.eqb n) l.
(** The staves before a subgroup (humdrumwriter.py:897-911): those of the sorted list below
    the lowest of the subgroup that are still to do. *)
Fixpoint staves_before (i : nat) (low : N) (todo sorted : list N) : str * list N :=
  match sorted with
  | [] => ([], [])
  | n :: l =>
      if (low <=? n)%N then ([], [])
      else
        let (o, done) := staves_before (S i) low todo l in
        if memN n todo then ((if 0 <? i then S_ "," else []) ++ staff_text n ++ o, n :: done) else (o, done)
  end.
(** The loop over the subgroups (humdrumwriter.py:890-919) of a group with these staves: the
    text, the staves still to do, the staves done. *)
Fixpoint subgroups (f : forest) (sorted todo : list N) : str * list N * list N :=
  match f with
  | FNil => ([], todo, [])
  | FTree s bar st kids rest =>
      let '(o1, done1) := staves_before 0 (hd 0%N st) todo sorted in
      let '(o2, left2, done2) := subgroups kids st st in
      let sub := match st with
                 | [] => []
                 | _ => pre_string s bar ++ o2 ++ staves_text 0 left2 ++ post_string s bar
                 end in
      let new := done2 ++ left2 in
      let todo' := filter (fun n => negb (memN n new)) (filter (fun n => negb (memN n done1)) todo) in
      let '(o3, left3, done3) := subgroups rest sorted todo' in
      (o1 ++ sub ++ o3, left3, done1 ++ new ++ done3)
  end.
(** _getSystemDecoration (humdrumwriter.py:838-863), _appendRecursiveDecoString (865-931). *)
Fixpoint write_deco (f : forest) : str :=
  match f with
  | FNil => []
  | FTree s bar st kids rest =>
      let '(o, remain, _) := subgroups kids st st in
      match st with
      | [] => write_deco rest
      | _ => (pre_string s bar ++ o ++ staves_text 0 remain ++ post_string s bar) ++ write_deco rest
      end
  end.

(** ** Reading *)

(** humdrumfile.py:11339-11340: other characters are removed. *)
Definition deco_char (c : ascii) : bool :=
  is_digit c || existsb (Ascii.eqb c) (S_ "s()<>{}*[]").
(** humdrumfile.py:11376-11385: empty groups, twice. *)
Definition drop_empty (s : str) : str :=
  replace (S_ "<>") [] (replace (S_ "{}") [] (replace (S_ "[]") [] (replace (S_ "()") [] s))).
Definition count_s (s : str) : nat := length (filter (Ascii.eqb "s"%char) s).

(** humdrumfile.py:11401-11433: brackets in order.  The positions in [pairing] are found by
    [closing] below and from the positions of the open brackets. *)
Definition closes (c : ascii) : option ascii :=
  if Ascii.eqb c ")" then Some "("%char else if Ascii.eqb c "}" then Some "{"%char
  else if Ascii.eqb c "]" then Some "["%char else if Ascii.eqb c ">" then Some "<"%char else None.
Definition is_open (c : ascii) : bool := existsb (Ascii.eqb c) (S_ "({[<").
Definition is_close (c : ascii) : bool := match closes c with Some _ => true | None => false end.
Fixpoint nested (st : list ascii) (s : str) : bool :=
  match s with
  | [] => match st with [] => true | _ => false end
  | c :: r =>
      if is_open c then nested (c :: st) r
      else match closes c with
           | Some o => match st with x :: st' => Ascii.eqb x o && nested st' r | [] => false end
           | None => nested st r
           end
  end.
(** How many characters before the bracket that closes the one just opened. *)
Fixpoint closing (depth : nat) (s : str) : nat :=
  match s with
  | [] => 0
  | c :: r =>
      if is_open c then S (closing (S depth) r)
      else if is_close c then match depth with O => O | S d => S (closing d r) end
      else S (closing depth r)
  end.
(** pairing[-1] == 0 (humdrumfile.py:11456): the last character closes the first. *)
Definition outer (s : str) : bool :=
  match s with c :: r => is_open c && (closing 0 r + 2 =? length s) && (2 <=? length s) | [] => false end.

(** M21StaffGroupDescriptionTree: symbol, bar lines, own staves, all staves, subgroups (as
    the first of them and those after it). *)
Inductive descs :=
| DNil
| DCons (s : symbol) (bar : bool) (owned ids : list nat) (kids rest : descs).
Fixpoint dapp (a b : descs) : descs :=
  match a with DNil => b | DCons s bar o i k r => DCons s bar o i k (dapp r b) end.
(** A group being read. *)
Record frame := Fr { f_sym : symbol; f_bar : bool; f_owned : list nat; f_ids : list nat; f_kids : descs }.
Definition add_id (i : nat) (f : frame) : frame :=
  Fr (f_sym f) (f_bar f) (f_owned f) (f_ids f ++ [i]) (f_kids f).
Definition add_owned (i : nat) (f : frame) : frame :=
  Fr (f_sym f) (f_bar f) (f_owned f ++ [i]) (f_ids f) (f_kids f).
Definition close_frame (f : frame) : descs := DCons (f_sym f) (f_bar f) (f_owned f) (f_ids f) (f_kids f) DNil.

Record state := St { groups : list frame; finished : descs; seen : list nat; value : N; is_staff : bool }.
Definition push (f : frame) (st : state) : state :=
  St (f :: groups st) (finished st) (seen st) (value st) (is_staff st).
(** currentGroup becomes the parent of the group that was opened at the paired bracket, which
    is the innermost one. *)
Definition pop (st : state) : state :=
  match groups st with
  | [] => st
  | [f] => St [] (dapp (finished st) (close_frame f)) (seen st) (value st) (is_staff st)
  | f :: g :: l =>
      St (Fr (f_sym g) (f_bar g) (f_owned g) (f_ids g) (dapp (f_kids g) (close_frame f)) :: l)
         (finished st) (seen st) (value st) (is_staff st)
  end.
Definition add_staff (i : nat) (st : state) : state :=
  St (match map (add_id i) (groups st) with [] => [] | f :: l => add_owned i f :: l end)
     (finished st) (seen st ++ [i]) (value st) (is_staff st).

(** humdrumDecoGroupStyleToM21GroupSymbol (m21convert.py:90-94). *)
Definition style_of (c : ascii) : option symbol :=
  if Ascii.eqb c "{" then Some Brace else if Ascii.eqb c "[" then Some Bracket
  else if Ascii.eqb c "<" then Some Square else None.

Section Read.
(** staffToStaffStartIndex. *)
Context (index : N -> option nat).

(** The loop of humdrumfile.py:11463-11550; [pos] is the position, [opens] the positions of
    the open brackets. *)
Fixpoint walk (s : str) (pos : nat) (opens : list nat) (st : state) : state :=
  match s with
  | [] => st
  | c :: r =>
      match style_of c with
      | Some sy =>
          match r with
          | n :: r' =>
              if Ascii.eqb n "(" && (closing 0 r' + 2 =? closing 0 r)
              then walk r' (pos + 2) (S pos :: pos :: opens) (push (Fr sy true [] [] DNil) st)
              else walk r (S pos) (pos :: opens) (push (Fr sy false [] [] DNil) st)
          | [] => walk r (S pos) (pos :: opens) (push (Fr sy false [] [] DNil) st)
          end
      | None =>
          if Ascii.eqb c "(" then walk r (S pos) (pos :: opens) (push (Fr NoSym true [] [] DNil) st)
          else if Ascii.eqb c ")" then
            match r, opens with
            | n :: _, p :: q :: _ =>
                if is_close n && negb (Ascii.eqb n ")") && (S q =? p) then walk r (S pos) (tl opens) st
                else walk r (S pos) (tl opens) (pop st)
            | _, _ => walk r (S pos) (tl opens) (pop st)
            end
          else if is_close c then walk r (S pos) (tl opens) (pop st)
          else if Ascii.eqb c "s" then
            walk r (S pos) opens (St (groups st) (finished st) (seen st) (value st) true)
          else if is_digit c then
            let v := (value st * 10 + digit_val c)%N in
            if match r with n :: _ => is_digit n | [] => false end
            then walk r (S pos) opens (St (groups st) (finished st) (seen st) v (is_staff st))
            else
              let st' := St (groups st) (finished st) (seen st) 0%N false in
              walk r (S pos) opens
                (if is_staff st then match index v with Some i => add_staff i st' | None => st' end else st')
          else walk r (S pos) opens st
      end
  end.
End Read.

Definition index_in (l : list N) (n : N) : option nat :=
  (fix go (i : nat) (l : list N) : option nat :=
     match l with [] => None | x :: l' => if N.eqb n x then Some i else go (S i) l' end) 0 l.

(** humdrumfile.py:11438-11582: the walk and the check that every staff is there once. *)
Definition read_walked (staff_list : list N) (d : str) : option descs :=
  let o := outer d in
  let start := St (if o then [] else [Fr NoSym false [] [] DNil]) DNil [] 0%N false in
  let final := walk (index_in staff_list) d 0 [] start in
  if forallb (fun i => count_occ Nat.eq_dec (seen final) i =? 1) (seq 0 (length staff_list))
  then Some (if o then finished final else match groups final with f :: _ => close_frame f | [] => DNil end)
  else None.
(** humdrumfile.py:11387-11582: without empty groups; the brackets of a single staff go. *)
Definition read_dropped (staff_list : list N) (d : str) : option descs :=
  if count_s d =? 0 then None
  else
    let d := if count_s d =? 1 then filter (fun c => is_digit c || Ascii.eqb c "s") d else d in
    if negb (nested [] d) then None else read_walked staff_list d.
(** _processSystemDecoration (humdrumfile.py:11154-11582) for a decoration without stars all
    of whose staff numbers are in the score; [expand] puts staves for instrument classes,
    groups and parts and removes those left.  [staff_list] are the numbers of the *staff
    interpretations.  None: the decoration is given up.  The result is the tree under
    [topLevelParent]. *)
Definition read_deco (expand : str -> str) (staff_list : list N) (decoration : str) : option descs :=
  read_dropped staff_list (drop_empty (drop_empty (filter deco_char (expand decoration)))).
