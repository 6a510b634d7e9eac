(** Model of pitches and vertical positions in MEI: written
    (mei/m21objectconvert.py, mei/meiscore.py) and read (mei/meireader.py). *)
From Coq Require Import ZArith.
From Verif Require Import PyStr NamesModel.

(** music21's accidentals by name; [AOther] is any accidental of a name that is not
    one of the standard ones. *)
Inductive accid :=
| ANat | ASharp | ASharp2 | ASharp3 | ASharp4 | AFlat | AFlat2 | AFlat3 | AFlat4
| AHalfSharp | ASharpHalf | AHalfFlat | AFlatHalf | AOther.

(** [m21AccidToMeiAccid] with [_M21_ACCID_TO_MEI_ACCID]
    (m21objectconvert.py:766-778, 793-800); '' if the name is not there. *)
Definition meiAccid (a : accid) : str :=
  match a with
  | ANat => S_ "n" | ASharp => S_ "s" | ASharp2 => S_ "ss" | ASharp3 => S_ "ts"
  | AFlat => S_ "f" | AFlat2 => S_ "ff" | AFlat3 => S_ "tf"
  | AHalfSharp => S_ "sd" | ASharpHalf => S_ "su" | AHalfFlat => S_ "fu" | AFlatHalf => S_ "fd"
  | ASharp4 | AFlat4 | AOther => []
  end.
(** [m21AccidToMeiAccidGes] with [_M21_ACCID_TO_MEI_ACCID_GES]
    (m21objectconvert.py:780-790, 802-810). *)
Definition meiAccidGes (a : accid) : str :=
  match a with
  | ANat => S_ "n" | ASharp => S_ "s" | ASharp2 => S_ "ss" | AFlat => S_ "f" | AFlat2 => S_ "ff"
  | AHalfSharp => S_ "sd" | ASharpHalf => S_ "su" | AHalfFlat => S_ "fu" | AFlatHalf => S_ "fd"
  | _ => []
  end.

(** The attributes of a note that make its pitch; [None]: not there. *)
Record pattrs := mkPA { p_pname : str; p_oct : option str; p_octges : option str; p_accid : option str; p_accidges : option str }.

(** An ottava: the number of octaves by which what is written is shifted, and
    whether it transposes (the notes of the score are as written) or not (the
    notes of the score are as they sound).
    [_OTTAVA_TYPE_TO_OCTAVE_SHIFT] (m21objectconvert.py:311-318). *)
Inductive otype := O8va | O8vb | O15ma | O15mb | O22da | O22db.
Definition octaveShift (o : otype) : Z :=
  match o with O8va => 1 | O8vb => -1 | O15ma => 2 | O15mb => -2 | O22da => 3 | O22db => -3 end%Z.
Record ottava := mkO { o_type : otype; o_transposing : bool }.

(** [_getOttavaShiftAndTransposing] (m21objectconvert.py:320-333): the first
    ottava of the note itself. *)
Definition shiftOf (own : list ottava) : Z * bool :=
  match own with [] => (0%Z, true) | o :: _ => (octaveShift (o_type o), o_transposing o) end.

(** What is read of a note: step (upper case), octave if it has one, accidental
    with [displayStatus] (None counts as false). *)
Record pitch := mkP { step : ascii; octave : option Z; acc : option (accid * bool) }.
Definition implicitOctave (p : pitch) : Z := match octave p with Some o => o | None => 4%Z end.

(** [_noteToMei] on a note with a pitch (m21objectconvert.py:359-392).  [own] are
    the ottavas that have the note itself among their elements. *)
Definition writePitch (own : list ottava) (p : pitch) : pattrs :=
  let io := implicitOctave p in
  let '(sh, tr) := shiftOf own in
  let '(oct, octges) :=
    if (sh =? 0)%Z then (io, None)
    else if tr then (io, Some (io + sh)%Z)
    else ((io - sh)%Z, Some io) in
  let '(ac, ges) :=
    match acc p with
    | None => (None, None)
    | Some (a, true) => (Some (meiAccid a), None)
    | Some (a, false) =>
        (None, match meiAccidGes a with [] => None | g => if str_eqb g (S_ "n") then None else Some g end)
    end in
  mkPA [to_lower (step p)] (Some (show_Z oct)) (option_map show_Z octges) ac ges.

(** [_accidentalFromAttr] with [_ACCID_ATTR_DICT] (meireader.py:554-563,
    711-721), followed by music21's reading of the sign; other values are none. *)
Definition accidAttr (s : str) : option accid :=
  let is x := str_eqb s (S_ x) in
  if is "s"%string || is "ns"%string then Some ASharp
  else if is "f"%string || is "nf"%string then Some AFlat
  else if is "ss"%string || is "x"%string then Some ASharp2
  else if is "ff"%string then Some AFlat2
  else if is "xs"%string || is "ts"%string then Some ASharp3
  else if is "tf"%string then Some AFlat3
  else if is "n"%string then Some ANat
  else if is "su"%string || is "3qs"%string then Some ASharpHalf
  else if is "sd"%string || is "nu"%string || is "1qs"%string then Some AHalfSharp
  else if is "fu"%string || is "nd"%string || is "1qf"%string then Some AHalfFlat
  else if is "fd"%string || is "3qf"%string then Some AFlatHalf
  else None.
(** [_accidGesFromAttr] with [_ACCID_GES_ATTR_DICT] (meireader.py:565-571, 723-733). *)
Definition accidGesAttr (s : str) : option accid :=
  let is x := str_eqb s (S_ x) in
  if is "s"%string then Some ASharp else if is "f"%string then Some AFlat
  else if is "ss"%string then Some ASharp2 else if is "ff"%string then Some AFlat2
  else if is "n"%string then Some ANat
  else if is "su"%string then Some ASharpHalf else if is "sd"%string then Some AHalfSharp
  else if is "fu"%string then Some AHalfFlat else if is "fd"%string then Some AFlatHalf
  else None.

(** Python's [int(s)] on a number as written by [str]. *)
Definition parse_Z (s : str) : Z :=
  match s with
  | c :: s' => if Ascii.eqb c "-" then (- Z.of_N (parse_N s'))%Z else Z.of_N (parse_N s)
  | [] => 0%Z
  end.

(** [noteFromElement] on the pitch of a note without <accid> elements
    (meireader.py:4770-4860), with [safePitch] (m21utilities.py:1541-1579). *)
Definition opt_bind {A B} (x : option A) (f : A -> option B) : option B := match x with Some a => f a | None => None end.
Definition nonempty (x : option str) : option str := opt_bind x (fun s => match s with [] => None | _ => Some s end).
Definition readPitch (a : pattrs) : pitch :=
  let o := match nonempty (p_oct a), nonempty (p_octges a) with
           | Some s, _ => s | None, Some s => s | None, None => S_ "4" end in
  let st := match p_pname a with c :: _ => to_upper c | [] => "C"%char end in
  mkP st (Some (parse_Z o))
    (match opt_bind (p_accidges a) accidGesAttr, opt_bind (p_accid a) accidAttr with
     | Some g, _ => Some (g, false)
     | None, Some x => Some (x, true)
     | None, None => None
     end).

(** The ottava itself: [_DIS_AND_DIS_PLACE_FROM_M21_OTTAVA_TYPE]
    (m21objectconvert.py:1058-1065, 1150-1156) and [_ppOctaves]
    (meireader.py:1486-1493, 1518-1538). *)
Definition writeOttava (o : ottava) : str * str :=
  match o_type o with
  | O8va => (S_ "8", S_ "above") | O8vb => (S_ "8", S_ "below") | O15ma => (S_ "15", S_ "above")
  | O15mb => (S_ "15", S_ "below") | O22da => (S_ "22", S_ "above") | O22db => (S_ "22", S_ "below")
  end.
Definition readOttava (d : str * str) : option ottava :=
  let is x y := str_eqb (fst d) (S_ x) && str_eqb (snd d) (S_ y) in
  option_map (fun t => mkO t true)
    (if is "8"%string "above"%string then Some O8va else if is "8"%string "below"%string then Some O8vb
     else if is "15"%string "above"%string then Some O15ma else if is "15"%string "below"%string then Some O15mb
     else if is "22"%string "above"%string then Some O22da else if is "22"%string "below"%string then Some O22db
     else None).

(** Unpitched notes: [m21DisplayPitchToMeiLoc] and [meiLocToM21DisplayName]
    (m21objectconvert.py:278-309); [None]: KeyError. *)
Definition writeLoc (step : ascii) (oct : Z) : option str :=
  option_map (fun b => show_Z (b - 30)%Z) (pitchToBase7 step oct).
Definition readLoc (loc : str) : str :=
  base7ToDisplayName ((match loc with [] => 0 | _ => parse_Z loc end) + 30)%Z.
(** music21's reading of a pitch name: a letter, minus signs for flats, an octave. *)
Definition m21PitchName (s : str) : option (ascii * Z) :=
  match s with
  | c :: rest =>
      let (_, d) := span (fun x => Ascii.eqb x "-") rest in
      match d with [] => None | _ => if forallb is_digit d then Some (to_upper c, Z.of_N (parse_N d)) else None end
  | [] => None
  end.

(** Positioned rests.  A clef: whether it is one for pitches (music21's [PitchClef])
    and the number of its lowest line (1 is C0), if it has one. *)
Record clef := mkC { c_pitch : bool; c_lowest : option Z }.
Definition lowestLine (c : option clef) : Z :=
  match c with Some (mkC _ (Some n)) => n | _ => 31%Z end.
(** [annotatePositionedRests] (meiscore.py:501-529) and [m21RestToMei]
    (m21objectconvert.py:262-266); [clefs] are the clefs of the staff so far, the
    last first.  music21: the note number n has step (n-1) mod 7 and octave (n-1) / 7. *)
Definition writeRest (clefs : list clef) (stepShift : Z) : option (str * str) :=
  if (stepShift =? 0)%Z then None
  else
    let n := (lowestLine (find c_pitch clefs) + 4 + stepShift)%Z in
    Some ([to_lower (nth (Z.to_nat ((n - 1) mod 7)) step_names "?"%char)], show_Z ((n - 1) / 7)).
(** [restFromElement] (meireader.py:5156-5178) without [loc]. *)
Definition readRest (clefs : list clef) (at_ : option (str * str)) : option Z :=
  match at_ with
  | Some (ploc, oloc) =>
      match ploc, oloc with
      | _ :: _, _ :: _ =>
          match m21PitchName (ploc ++ oloc) with
          | Some (s, o) => option_map (fun b => (b + 1 - (lowestLine (hd_error clefs) + 4))%Z) (pitchToBase7 s o)
          | None => None
          end
      | _, _ => Some 0%Z
      end
  | None => Some 0%Z
  end.
