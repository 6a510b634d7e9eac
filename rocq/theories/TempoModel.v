(** Tempo texts and numbers in Humdrum files: how the text and the number of a
    metronome mark are written (converter21/humdrum/m21convert.py) and read
    (convert.py, humdrumfile.py, humdrumtoken.py).

    Texts are lists of Unicode code points.  Digits other than 0-9 are not
    modelled; decimal numbers are exact. *)
From Coq Require Import QArith Qround ZArith.
From Verif Require Import PyStr.
Local Close Scope Q_scope.

Definition text := list N.
(** A literal. *)
Definition U (s : string) : text := map N_of_ascii (list_ascii_of_string s).
Definition ch (c : ascii) : N := N_of_ascii c.
Fixpoint text_eqb (a b : text) : bool :=
  match a, b with
  | [], [] => true
  | x :: a', y :: b' => N.eqb x y && text_eqb a' b'
  | _, _ => false
  end.
Fixpoint is_prefix (p s : text) : bool :=
  match p, s with
  | [], _ => true
  | x :: p', y :: s' => N.eqb x y && is_prefix p' s'
  | _ :: _, [] => false
  end.

Definition thin : N := 8201.   (* 0x2009 *)
Definition hair : N := 8202.   (* 0x200A *)
Definition nbsp : N := 160.    (* 0x00A0 *)
Definition nl : N := 10.
Definition dot : N := 60599.   (* metAugmentationDot, 0xECB7 *)

(** [str.isspace], the same for [\s] and [strip]. *)
Definition space (c : N) : bool :=
  (N.leb 9 c && N.leb c 13) || (N.leb 28 c && N.leb c 32) || N.eqb c 133 || N.eqb c 160 || N.eqb c 5760
  || (N.leb 8192 c && N.leb c 8202) || N.eqb c 8232 || N.eqb c 8233 || N.eqb c 8239 || N.eqb c 8287 || N.eqb c 12288.
Definition digit (c : N) : bool := N.leb 48 c && N.leb c 57.
Fixpoint skip_spaces (s : text) : text :=
  match s with c :: s' => if space c then skip_spaces s' else s | [] => [] end.
Definition strip_text (s : text) : text := rev (skip_spaces (rev (skip_spaces s))).

(** ** Notes in texts *)
Inductive note_type := Breve | Whole | Half | Quarter | T8 | T16 | T32 | T64 | T128 | T256 | T512 | T1024.

(** The characters (sharedconstants.py:544-557) and the names for them
    (sharedconstants.py:562-576). *)
Definition note_names : list (N * text) :=
  [ (60576, U "double-whole"); (60577, U "breve"); (60578, U "whole"); (60579, U "half"); (60581, U "quarter");
    (60583, U "8th"); (60585, U "16th"); (60587, U "32nd"); (60589, U "64th"); (60591, U "128th");
    (60593, U "256th"); (60595, U "512th"); (60597, U "1024th") ]%N.
Definition name_of (c : N) : option text :=
  match find (fun p => N.eqb (fst p) c) note_names with Some p => Some (snd p) | None => None end.

(** The note for a name without dots (m21convert.py:2150-2173; convert.py:600-623
    has the same names). *)
Definition names_of (t : note_type) : list text :=
  match t with
  | Quarter => [U "quarter"; U "4"]
  | Half => [U "half"; U "2"]
  | Whole => [U "whole"; U "1"]
  | Breve => [U "breve"; U "double-whole"; U "0"]
  | T8 => [U "eighth"; U "8"; U "8th"]
  | T16 => [U "sixteenth"; U "16"; U "16th"]
  | T32 => [U "32"; U "32nd"]
  | T64 => [U "64"; U "64th"]
  | T128 => [U "128"; U "128th"]
  | T256 => [U "256"; U "256th"]
  | T512 => [U "512"; U "512th"]
  | T1024 => [U "1024"; U "1024th"]
  end.
Definition note_types : list note_type := [Quarter; Half; Whole; Breve; T8; T16; T32; T64; T128; T256; T512; T1024].
Definition type_of_name (name : text) : option note_type :=
  find (fun t => existsb (text_eqb name) (names_of t)) note_types.
(** The character for it (convert.py:600-623). *)
Definition char_of (t : note_type) : N :=
  match t with
  | Breve => 60576 | Whole => 60578 | Half => 60579 | Quarter => 60581 | T8 => 60583 | T16 => 60585 | T32 => 60587
  | T64 => 60589 | T128 => 60591 | T256 => 60593 | T512 => 60595 | T1024 => 60597
  end%N.

(** ** Writing the text *)

(** The loop of [translateSMUFLNotesToNoteNames] (m21convert.py:1984-2020): after
    a note, dots are named and thin spaces dropped until another character; the
    end of the text there is an IndexError ([None]). *)
Fixpoint translate_from (inNote : bool) (s : text) : option text :=
  match s with
  | [] => if inNote then None else Some []
  | c :: s' =>
      let before := if inNote then U "]" else [] in
      let add x r := match r with Some y => Some (x ++ y) | None => None end in
      if inNote && N.eqb c dot then add (U "-dot") (translate_from true s')
      else if inNote && (N.eqb c thin || N.eqb c hair) then translate_from true s'
      else match name_of c with
           | Some name => add (before ++ U "[" ++ name) (translate_from true s')
           | None =>
               if N.eqb c thin || N.eqb c hair then translate_from false s'
               else if N.eqb c nbsp then add (before ++ U " ") (translate_from false s')
               else add (before ++ [c]) (translate_from false s')
           end
  end.
(** [translateSMUFLNotesToNoteNames] (m21convert.py:1967-2022). *)
Definition has_note (s : text) : bool := existsb (fun c => match name_of c with Some _ => true | None => false end) s.
Definition translate (s : text) : option text := if has_note s then translate_from false s else Some s.

(** [_cleanSpacesAndColons] (m21convert.py:1935-1965). *)
Definition clean_char (c : N) : text :=
  if N.eqb c nbsp then U "&nbsp;"
  else if N.eqb c (ch ":") then U "&colon;"
  else if N.eqb c nl then U "\n"
  else if existsb (N.eqb c) [9; 13; 11; 12]%N then U " "
  else [c].
Definition clean (s : text) : text := strip_text (flat_map clean_char s).

(** The text of a tempo as written (m21convert.py:2043-2050, 2064-2070). *)
Definition written_text (s : text) : option text :=
  match translate s with Some t => Some (clean t) | None => None end.

(** ** Reading the text *)

(** [html.unescape] for the two entities that are written; [replace(r'\n', '\n')].
    A number of characters to skip makes these structural. *)
Fixpoint unescape_from (skip : nat) (s : text) : text :=
  match s, skip with
  | [], _ => []
  | _ :: s', S k => unescape_from k s'
  | c :: s', O =>
      if is_prefix (U "&nbsp;") s then nbsp :: unescape_from 5 s'
      else if is_prefix (U "&colon;") s then ch ":" :: unescape_from 6 s'
      else c :: unescape_from 0 s'
  end.
Definition unescape (s : text) : text := unescape_from 0 s.
Fixpoint newlines_from (skip : nat) (s : text) : text :=
  match s, skip with
  | [], _ => []
  | _ :: s', S k => newlines_from k s'
  | c :: s', O => if is_prefix (U "\n") s then nl :: newlines_from 1 s' else c :: newlines_from 0 s'
  end.
Definition newlines (s : text) : text := newlines_from 0 s.

Fixpoint span_text (p : N -> bool) (s : text) : text * text :=
  match s with
  | c :: s' => if p c then let (a, b) := span_text p s' in (c :: a, b) else ([], s)
  | [] => ([], [])
  end.

(** The part of the regular expressions after the opening bracket: a name up to
    the closing bracket, an equals sign and the text from the first digit on. *)
Definition after_bracket (s : text) : option (text * text) :=
  let (name, r) := span_text (fun c => negb (N.eqb c (ch "=")) && negb (N.eqb c (ch "]"))) s in
  match r with
  | c :: r' =>
      if N.eqb c (ch "]") then
        match skip_spaces r' with
        | e :: r'' =>
            if N.eqb e (ch "=") then
              let num := skip_spaces r'' in
              match num with d :: _ => if digit d then Some (name, num) else None | [] => None end
            else None
        | [] => None
        end
      else None
  | [] => None
  end.
(** [\d+\.?\d*] at the start of a text that begins with a digit. *)
Definition number_text (s : text) : text :=
  let (a, r) := span_text digit s in
  match r with
  | c :: r' => if N.eqb c (ch ".") then a ++ [c] ++ fst (span_text digit r') else a
  | [] => a
  end.

(** The M.M. of the regular expressions. *)
Definition mm_forms : list text := [U "M.M."; U "M. M."; U "M:M:"; U "M M"].
Definition opening (paren : bool) (s : text) : option text :=
  if is_prefix (if paren then U "([" else U "[") s then Some (skipn (if paren then 2 else 1) s) else None.
(** The rest of the expression after the first group, at some position: each part
    can be taken in one way only. *)
Definition mark_at (paren : bool) (s : text) : option (text * text * text) :=
  let s := skip_spaces s in
  let plain := match opening paren s with
               | Some r => match after_bracket r with Some (name, num) => Some ([], name, number_text num) | None => None end
               | None => None
               end in
  match find (fun f => is_prefix f s) mm_forms with
  | Some f =>
      match opening paren (skip_spaces (skipn (length f) s)) with
      | Some r => match after_bracket r with Some (name, num) => Some (f, name, number_text num) | None => plain end
      | None => plain
      end
  | None => plain
  end.
(** [re.search] with one of [_METRONOME_MARK_PATTERNS] (convert.py:484-491): the
    first group is lazy and has no newline. *)
Fixpoint search_mark (paren : bool) (line s : text) : option (text * text * text * text) :=
  match mark_at paren s with
  | Some (mm, name, num) => Some (line, mm, name, num)
  | None =>
      match s with
      | [] => None
      | c :: s' => if N.eqb c nl then search_mark paren [] s' else search_mark paren (line ++ [c]) s'
      end
  end.
(** [Convert.getMetronomeMarkInfo] (convert.py:495-512). *)
Definition getMetronomeMarkInfo (s : text) : option (text * text * text * text) :=
  match search_mark true [] s with Some r => Some r | None => search_mark false [] s end.

(** The expression of [getTempoText] (convert.py:527): greedy, so the last
    bracket of the first line that has one. *)
Definition line_of (s : text) : text := fst (span_text (fun c => negb (N.eqb c nl)) s).
Fixpoint last_in_line (before s : text) : option (text * text * text) :=
  match s with
  | [] => None
  | c :: s' =>
      if N.eqb c nl then None
      else match last_in_line (before ++ [c]) s' with
           | Some r => Some r
           | None =>
               match opening false s with
               | Some r => match after_bracket r with Some (name, num) => Some (before, name, line_of num) | None => None end
               | None => None
               end
           end
  end.
Fixpoint search_tempo (atStart : bool) (s : text) : option (text * text * text) :=
  match (if atStart then last_in_line [] s else None) with
  | Some r => Some r
  | None => match s with [] => None | c :: s' => search_tempo (N.eqb c nl) s' end
  end.

(** [$]: the text before it, and a last newline. *)
Definition before_end (s : text) : text * text :=
  match rev s with c :: r => if N.eqb c nl then (rev r, [c]) else (s, []) | [] => (s, []) end.
Definition ends_with (suffix s : text) : bool := is_prefix (rev suffix) (rev (fst (before_end s))).
(** [re.sub('[|@].*', '', s)]. *)
Fixpoint cut_styles (cutting : bool) (s : text) : text :=
  match s with
  | [] => []
  | c :: s' =>
      if N.eqb c nl then c :: cut_styles false s'
      else if cutting || N.eqb c (ch "|") || N.eqb c (ch "@") then cut_styles true s'
      else c :: cut_styles false s'
  end.
(** [re.sub('(-dot)+', '', s)]. *)
Fixpoint cut_dots_from (skip : nat) (s : text) : text :=
  match s, skip with
  | [], _ => []
  | _ :: s', S k => cut_dots_from k s'
  | c :: s', O => if is_prefix (U "-dot") s then cut_dots_from 3 s' else c :: cut_dots_from 0 s'
  end.
Definition cut_dots (s : text) : text := cut_dots_from 0 s.
(** The dots and the name without them (m21convert.py:2131-2148, convert.py:582-598). *)
Definition dots_of_name (s : text) : nat * text :=
  let s := cut_styles false s in
  let dots := if ends_with (U "-dot") s
              then if ends_with (U "-dot-dot") s then if ends_with (U "-dot-dot-dot") s then 3 else 2 else 1
              else 0 in
  let (b, e) := before_end (cut_dots s) in
  let (points, r) := span_text (N.eqb (ch ".")) (rev b) in
  (dots + length points, rev r ++ e).

(** [durationFromHumdrumTempoNoteName] (m21convert.py:2116-2175); for an empty
    name there is no result. *)
Definition durationFromName (s : text) : option (note_type * nat) :=
  match s with
  | [] => None
  | c :: s' =>
      let s := if N.eqb c (ch "[") then s' else s in
      (* python's [noteName[-1]] fails on a text that was just the bracket *)
      let (dots, name) := dots_of_name s in
      match type_of_name name with Some t => Some (t, dots) | None => None end
  end.
(** [humdrumTempoNoteNameToSmuflText] (convert.py:567-631). *)
Definition symbols_of_name (s : text) : text :=
  match s with
  | [] => []
  | _ =>
      let (dots, name) := dots_of_name s in
      match type_of_name name with Some t => [char_of t] | None => [] end ++ repeat dot dots
  end.

(** [Convert.getTempoText] (convert.py:523-565). *)
Fixpoint spaced (s : text) : text :=
  match s with
  | [] => []
  | c :: s' => (if N.eqb c dot then thin else nbsp) :: c :: spaced s'
  end.
Definition getTempoText (s : text) : text :=
  match search_tempo true s with
  | None => []
  | Some (first, second, third) =>
      let first := match rev first with c :: _ => if N.eqb c (ch "(") then first ++ [hair] else first | [] => first end in
      let symbols := match symbols_of_name second with c :: r => c :: spaced r | [] => [] end in
      first ++ symbols ++ [nbsp; ch "="; nbsp] ++ third
  end.

(** ** Numbers *)

(** [int(float(s) + 0.5)] for [\d+\.?\d*]. *)
Definition digit_value (c : N) : N := (c - 48)%N.
Definition parse_digits (s : text) : N := fold_left (fun n c => (10 * n + digit_value c)%N) s 0%N.
Definition rounded (s : text) : N :=
  let (a, r) := span_text digit s in
  match r with
  | _ :: d :: _ => if N.leb 53 d then (parse_digits a + 1)%N else parse_digits a
  | _ => parse_digits a
  end.

(** The number written for a tempo (m21convert.py:2072-2079), and read
    (humdrumfile.py:10007-10014, humdrumtoken.py:1511-1528). *)
Definition mm_token (quarterBPM : Q) : text := U "*MM" ++ map N_of_ascii (show_Z (Qfloor (quarterBPM + (1 # 2)))).
Definition tempoBPM (s : text) : N :=
  if is_prefix (U "*MM") s then
    match skipn 3 s with
    | d :: _ => if digit d then rounded (number_text (skipn 3 s)) else 0%N
    | [] => 0%N
    end
  else 0%N.

(** ** Metronome marks *)
Record mark := mkMark { m_text : option text; m_number : option N; m_referent : option (note_type * nat) }.
Definition positive (n : N) : option N := if N.eqb n 0 then None else Some n.
Definition nonempty (s : text) : option text := match s with [] => None | _ => Some s end.

(** [_createMetronomeMark] (humdrumfile.py:10113-10211) with the number of the
    nearby *MM, 0 if there is none.  A number is always found in a text that
    matches, so the text is then that of [getTempoText]. *)
Definition createMetronomeMark (s : text) (bpm : N) : option mark :=
  let s := newlines (unescape s) in
  match getMetronomeMarkInfo s with
  | None =>
      match nonempty (strip_text s), positive bpm with
      | None, None => None
      | t, n => Some (mkMark t n None)
      end
  | Some (_, _, name, num) =>
      Some (mkMark (Some (getTempoText s)) (positive (rounded num)) (durationFromName name))
  end.

(** Text found in a layout comment before a time signature (humdrumfile.py:
    9750-9783) or in a reference record at the start of a measure
    (humdrumfile.py:10318-10363; the value has no spaces around it). *)
Definition read_layout (s : text) (bpm : N) : option mark := createMetronomeMark (strip_text (newlines (unescape s))) bpm.
Definition read_record (s : text) (bpm : N) : option mark :=
  match unescape (strip_text s) with
  | [] => None
  | v => createMetronomeMark (newlines v) bpm
  end.

(** A tempo written and read: its text and its number of quarters a minute.  At
    the start of the file the text is in a layout comment, later in a record. *)
Definition round_tempo (first : bool) (s : text) (quarterBPM : option Q) : option (option mark) :=
  match written_text s with
  | None => None
  | Some w =>
      let bpm := match quarterBPM with Some q => tempoBPM (mm_token q) | None => 0%N end in
      Some (if first then read_layout w bpm else read_record w bpm)
  end.
