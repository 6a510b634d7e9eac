(** Model of the pitch text functions. *)
From Verif Require Import PyStr.
Local Open Scope Z_scope.

(** convert.py:995-1018, [kernToDiatonicPC].  -1000: rest; -2000: no pitch. *)
Fixpoint kernToDiatonicPC (text : str) : Z :=
  match text with
  | [] => -2000
  | ch :: rest =>
      if Ascii.eqb ch " " then -2000
      else if Ascii.eqb ch "r" then -1000
      else if char_in ch (S_ "cC") then 0
      else if char_in ch (S_ "dD") then 1
      else if char_in ch (S_ "eE") then 2
      else if char_in ch (S_ "fF") then 3
      else if char_in ch (S_ "gG") then 4
      else if char_in ch (S_ "aA") then 5
      else if char_in ch (S_ "bB") then 6
      else kernToDiatonicPC rest
  end.

(** convert.py:973-985, [kernToAccidentalCount]. *)
Fixpoint kernToAccidentalCount_from (output : Z) (text : str) : Z :=
  match text with
  | [] => output
  | ch :: rest =>
      if Ascii.eqb ch " " then output
      else if Ascii.eqb ch "-" then kernToAccidentalCount_from (output - 1) rest
      else if Ascii.eqb ch "#" then kernToAccidentalCount_from (output + 1) rest
      else kernToAccidentalCount_from output rest
  end.
Definition kernToAccidentalCount (text : str) : Z := kernToAccidentalCount_from 0 text.

(** convert.py:896-905, the counting loop of [kernToOctaveNumber]; [None]: the
    loop returned early because of a rest. *)
Fixpoint octave_counts (uc lc : Z) (text : str) : option (Z * Z) :=
  match text with
  | [] => Some (uc, lc)
  | ch :: rest =>
      if Ascii.eqb ch " " then Some (uc, lc)
      else if Ascii.eqb ch "r" then None
      else octave_counts (if char_in ch (S_ "ABCDEFG") then uc + 1 else uc)
                         (if char_in ch (S_ "abcdefg") then lc + 1 else lc) rest
  end.

(** convert.py:888-917, [kernToOctaveNumber]. *)
Definition kernToOctaveNumber (text : str) : Z :=
  if str_eqb text (S_ ".") then -1000
  else match octave_counts 0 0 text with
       | None => -1000
       | Some (uc, lc) =>
           if (0 <? uc) && (0 <? lc) then -1000
           else if 0 <? uc then 4 - uc
           else if 0 <? lc then 3 + lc
           else -1000
       end.

(** convert.py:854-878, [kernToBase40PC]. *)
Definition kernToBase40PC (text : str) : Z :=
  let d := kernToDiatonicPC text in
  if d <? 0 then d
  else
    let acc := kernToAccidentalCount text in
    let o := if d =? 0 then 0 else if d =? 1 then 6 else if d =? 2 then 12
             else if d =? 3 then 17 else if d =? 4 then 23 else if d =? 5 then 29
             else if d =? 6 then 35 else -1000 in
    o + acc + 2.

(** convert.py:839-846, [kernToBase40]. *)
Definition kernToBase40 (text : str) : Z :=
  let pc := kernToBase40PC text in
  if pc <? 0 then pc else pc + 40 * kernToOctaveNumber text.

(** convert.py:926-949, [kernToBase12PC]. *)
Definition kernToBase12PC (text : str) : Z :=
  let d := kernToDiatonicPC text in
  if d <? 0 then d
  else
    let acc := kernToAccidentalCount text in
    let o := if d =? 0 then 0 else if d =? 1 then 2 else if d =? 2 then 4
             else if d =? 3 then 5 else if d =? 4 then 7 else if d =? 5 then 9
             else if d =? 6 then 11 else -1000 in
    o + acc.

(** convert.py:957-961, [kernToMidiNoteNumber]. *)
Definition kernToMidiNoteNumber (text : str) : Z :=
  kernToBase12PC text + 12 * (kernToOctaveNumber text + 1).

(** convert.py:1157-1164, [kernToBase7]. *)
Definition kernToBase7 (text : str) : Z :=
  let d := kernToDiatonicPC text in
  if d <? 0 then d else d + 7 * kernToOctaveNumber text.

(** convert.py:1173-1194, [base7ToBase40]; [/] and [mod] on Z round towards
    minus infinity, as Python's [//] and [%]. *)
Definition base7ToBase40 (base7 : Z) : Z :=
  let octave := base7 / 7 in
  let pc := base7 mod 7 in
  let b40pc := if pc =? 0 then 0 else if pc =? 1 then 6 else if pc =? 2 then 12
               else if pc =? 3 then 17 else if pc =? 4 then 23 else if pc =? 5 then 29
               else if pc =? 6 then 35 else 0 in
  octave * 40 + 2 + b40pc.

Definition z_in (z : Z) (l : list Z) : bool := existsb (Z.eqb z) l.

(** convert.py:1263-1287, [base40ToDiatonic]. *)
Definition base40ToDiatonic (b40 : Z) : Z :=
  if b40 <? 0 then -1
  else
    let chroma := b40 mod 40 in
    let off := b40 / 40 * 7 in
    if z_in chroma [0; 1; 2; 3; 4] then 0 + off
    else if z_in chroma [6; 7; 8; 9; 10] then 1 + off
    else if z_in chroma [12; 13; 14; 15; 16] then 2 + off
    else if z_in chroma [17; 18; 19; 20; 21] then 3 + off
    else if z_in chroma [23; 24; 25; 26; 27] then 4 + off
    else if z_in chroma [29; 30; 31; 32; 33] then 5 + off
    else if z_in chroma [35; 36; 37; 38; 39] then 6 + off
    else -1.

(** convert.py:1302-1384, the table of [base40ToAccidental], index = chroma. *)
Definition accidental_table : list Z :=
  [ -2; -1; 0; 1; 2; 1000;
    -2; -1; 0; 1; 2; 1000;
    -2; -1; 0; 1; 2;
    -2; -1; 0; 1; 2; 1000;
    -2; -1; 0; 1; 2; 1000;
    -2; -1; 0; 1; 2; 1000;
    -2; -1; 0; 1; 2 ].

(** convert.py:1295-1384, [base40ToAccidental]. *)
Definition base40ToAccidental (b40 : Z) : Z :=
  if b40 <? 0 then 0 else nth (Z.to_nat (b40 mod 40)) accidental_table 0.

Definition diatonic_letter (d : Z) : ascii :=
  if d =? 0 then "c" else if d =? 1 then "d" else if d =? 2 then "e"
  else if d =? 3 then "f" else if d =? 4 then "g" else if d =? 5 then "a"
  else if d =? 6 then "b" else "a".

(** Accidental signs as text: ['#' * n] or ['-' * -n]. *)
Definition accid_text (n : Z) : str :=
  if 0 <? n then rep "#" (Z.to_nat n)
  else if n <? 0 then rep "-" (Z.to_nat (- n)) else [].

(** convert.py:1202-1241, [base40ToKern]; [None]: raises HumdrumInternalError. *)
Definition base40ToKern (b40 : Z) : option str :=
  let octave := b40 / 40 in
  let accidental := base40ToAccidental b40 in
  let diatonic := base40ToDiatonic b40 mod 7 in
  let base := if octave <? 4 then to_upper (diatonic_letter diatonic)
              else diatonic_letter diatonic in
  let repeat_ := if 4 <? octave then octave - 4 else if octave <? 3 then 3 - octave else 0 in
  if 12 <? repeat_ then None
  else Some (rep base (Z.to_nat (1 + repeat_)) ++ accid_text accidental).

(** convert.py:1246-1250, [base7ToKern]. *)
Definition base7ToKern (base7 : Z) : option str := base40ToKern (base7ToBase40 base7).

(** Spelled pitches: music21's step, octave and alteration. *)
Inductive step := StC | StD | StE | StF | StG | StA | StB.

Definition step_letter (s : step) : ascii :=
  match s with
  | StC => "C" | StD => "D" | StE => "E" | StF => "F" | StG => "G" | StA => "A" | StB => "B"
  end.

(** m21convert.py:866-881, [kernPitchFromM21OctaveAndStep]. *)
Definition kernPitchFromM21OctaveAndStep (octave : Z) (s : step) : str :=
  if 3 <? octave then rep (to_lower (step_letter s)) (Z.to_nat (octave - 3))
  else rep (to_upper (step_letter s)) (Z.to_nat (4 - octave)).

(** How the accidental is displayed: music21's displayStatus / displayStyle.
    [Editorial suffix] carries the signifier chosen by the writer. *)
Inductive display := NoAccidental | Hidden | Explicit | Editorial (suffix : str).

(** m21convert.py:1667-1713, [kernPitchFromM21Pitch].  [NoAccidental] is
    [m21Pitch.accidental is None] (then the alteration is not written).
    Simplification: alterations are integers (the code drops microtones). *)
Definition kernPitchFromM21Pitch (s : step) (octave alter : Z) (disp : display) : str :=
  kernPitchFromM21OctaveAndStep octave s
  ++ match disp with
     | NoAccidental => []
     | Hidden => accid_text alter
     | Explicit => accid_text alter ++ (if alter =? 0 then S_ "n" else S_ "X")
     | Editorial suf => accid_text alter ++ (if alter =? 0 then S_ "n" ++ suf else suf)
     end.

(** m21convert.py:51-59, [diatonicToM21PitchName]; [None]: KeyError. *)
Definition diatonicToM21PitchName (d : Z) : option str :=
  if d =? 0 then Some (S_ "C") else if d =? 1 then Some (S_ "D")
  else if d =? 2 then Some (S_ "E") else if d =? 3 then Some (S_ "F")
  else if d =? 4 then Some (S_ "G") else if d =? 5 then Some (S_ "A")
  else if d =? 6 then Some (S_ "B") else None.

(** m21convert.py:234-239: the count runs over the whole subtoken. *)
Fixpoint accid_count_all (n : Z) (text : str) : Z :=
  match text with
  | [] => n
  | ch :: rest =>
      if Ascii.eqb ch "#" then accid_count_all (n + 1) rest
      else if Ascii.eqb ch "-" then accid_count_all (n - 1) rest
      else accid_count_all n rest
  end.

(** m21convert.py:226-247, [m21PitchName]. *)
Definition m21PitchName (text : str) : str :=
  let d := kernToDiatonicPC text in
  if d <? 0 then []
  else match diatonicToM21PitchName d with
       | Some nm => nm ++ accid_text (accid_count_all 0 text)
       | None => []
       end.

(** humdrumfile.py:7570-7600: the name and octave given to an imported pitched
    note; [None]: the note is dropped. *)
Definition import_pitch (text : str) : option (str * Z) :=
  let name := m21PitchName text in
  let octave := kernToOctaveNumber text in
  if octave <? 0 then None else Some (name, octave).

(** convert.py:1394-1396, [diatonicChromaticToTrans]. *)
Definition diatonicChromaticToTrans (d c : Z) : str :=
  S_ "d" ++ show_Z d ++ S_ "c" ++ show_Z c.

(** A [[+-]?\d+] match at the start of a text: value and remainder.
    [int()] of the match; '+' and '-' signs allowed. *)
Definition match_int (s : str) : option (Z * str) :=
  let '(sign, s1) := match s with
                     | "+"%char :: r => (1, r)
                     | "-"%char :: r => (-1, r)
                     | _ => (1, s)
                     end in
  match span is_digit s1 with
  | ([], _) => None
  | (ds, rest) => Some (sign * Z.of_N (parse_N ds), rest)
  end.

(** One match attempt of [d([+-]?\d+)c([+-]?\d+)] at the start of the text. *)
Definition match_trans (s : str) : option (Z * Z) :=
  match s with
  | "d"%char :: s1 =>
      match match_int s1 with
      | Some (d, "c"%char :: s2) =>
          match match_int s2 with
          | Some (c, _) => Some (d, c)
          | None => None
          end
      | _ => None
      end
  | _ => None
  end.

(** convert.py:1386-1392, [transToDiatonicChromatic] (regex search). *)
Fixpoint transToDiatonicChromatic (s : str) : option (Z * Z) :=
  match s with
  | [] => None
  | _ :: s' => match match_trans s with Some r => Some r | None => transToDiatonicChromatic s' end
  end.

(** m21convert.py:789-802: generic interval value and semitones to text. *)
Definition transposeStringFromInterval (generic semitones : Z) : str :=
  let dia := if generic <? 0 then generic + 1 else generic - 1 in
  diatonicChromaticToTrans dia semitones.

(** m21convert.py:769-787: text to (generic interval value, semitones);
    [None]: no transposition. *)
Definition intervalFromTranspose (s : str) : option (Z * Z) :=
  match transToDiatonicChromatic s with
  | None => None
  | Some (dia, chroma) =>
      if (dia =? 0) && (chroma =? 0) then None
      else Some (if dia <? 0 then dia - 1 else dia + 1, chroma)
  end.
