(** Octave lines and transposing instruments: the pitches that are written to MEI and
    Humdrum files, and those that are read from them.

    music21 is taken as follows.  An [Ottava] has a type, an attribute [transposing], and
    the objects that it spans.  If it is transposing, the pitches of its objects are
    those on paper, and sound at the interval of the type; if it is not, they sound as
    they are.  [performTransposition] and [undoTransposition] go from one to the other;
    [toSoundingPitch] and [toWrittenPitch] of a part do so for all its octave lines, and
    for the transposition of its instrument. *)
From Coq Require Import List ZArith NArith Ascii String Bool Lia.
From Verif Require Import PyStr PyStrProofs ClefModel MeiIdsModel.
Import ListNotations.
Local Open Scope Z_scope.
Local Open Scope bool_scope.
Local Open Scope list_scope.

(** The types of octave lines: number of octaves, and whether up. *)
Inductive otype := Va8 | Vb8 | Ma15 | Mb15 | Da22 | Db22.

(** m21objectconvert.py:311-318. *)
Definition octaves (t : otype) : Z := match t with Va8 => 1 | Vb8 => -1 | Ma15 => 2 | Mb15 => -2 | Da22 => 3 | Db22 => -3 end.

(** An octave line with the ids of the objects that it spans. *)
Record ottava := Ott { o_type : otype; o_trans : bool; o_elems : list str }.

(** Objects with their ids, notes with the numbers of their octaves.  The notes of a
    chord have ids of their own. *)
Inductive obj := ONote (i : str) (o : Z) | OChord (i : str) (ns : list (str * Z)) | ORest (i : str).
Definition obj_id (o : obj) : str := match o with ONote i _ | OChord i _ | ORest i => i end.

Definition in_ids (i : str) (l : list str) : bool := existsb (str_eqb i) l.

(** ** Writing MEI *)

(** m21objectconvert.py:320-333, [_getOttavaShiftAndTransposing]: the first octave
    line that the note is in. *)
Definition shift_at (os : list ottava) (i : str) : Z * bool :=
  match find (fun o => in_ids i (o_elems o)) os with Some o => (octaves (o_type o), o_trans o) | None => (0, true) end.

(** The attributes @oct and @oct.ges. *)
Record oattr := OAttr { a_oct : option Z; a_ges : option Z }.

(** m21objectconvert.py:361-379, the octave in [_noteToMei]. *)
Definition octToMei (os : list ottava) (i : str) (o : Z) : oattr :=
  let (sh, tr) := shift_at os i in
  if sh =? 0 then OAttr (Some o) None
  else if tr then OAttr (Some o) (Some (o + sh))
  else OAttr (Some (o - sh)) (Some o).

Inductive wobj := WNote (i : str) (a : oattr) | WChord (i : str) (ns : list (str * oattr)) | WRest (i : str).

(** m21objectconvert.py:67-76, 219-245, 247-277: notes, chords and rests. *)
Definition objToMei (os : list ottava) (o : obj) : wobj :=
  match o with
  | ONote i n => WNote i (octToMei os i n)
  | OChord i ns => WChord i (map (fun n => (fst n, octToMei os (fst n) (snd n))) ns)
  | ORest i => WRest i
  end.

(** m21objectconvert.py:1058-1065. *)
Definition disToMei (t : otype) : str * str :=
  match t with
  | Va8 => (S_ "8", S_ "above") | Vb8 => (S_ "8", S_ "below")
  | Ma15 => (S_ "15", S_ "above") | Mb15 => (S_ "15", S_ "below")
  | Da22 => (S_ "22", S_ "above") | Db22 => (S_ "22", S_ "below")
  end.

(** An <octave> element: @dis, @dis.place, @startid and @endid. *)
Record octElt := OctElt { e_dis : str; e_place : str; e_span : span }.

(** m21objectconvert.py:1149-1156 with 996-1048: no end if it is the start. *)
Definition octaveToMei (o : ottava) : octElt :=
  let f := hd [] (o_elems o) in
  let l := last (o_elems o) [] in
  OctElt (fst (disToMei (o_type o))) (snd (disToMei (o_type o)))
    (mkSpan ("#"%char :: f) (if str_eqb l f then [] else "#"%char :: l)).

(** meiscore.py:531-541, [fillOttavas]: music21's [Spanner.fill] puts into an octave line
    what its part has from the first to the last of its objects; [fill] says what that
    is. *)
Definition fillOttava (fill : str -> str -> list str) (o : ottava) : ottava :=
  Ott (o_type o) (o_trans o) (match o_elems o with [] => [] | f :: _ => fill f (last (o_elems o) []) end).

Definition write_mei (fill : str -> str -> list str) (os : list ottava) (objs : list obj) : list octElt * list wobj :=
  let os := map (fillOttava fill) os in
  (map octaveToMei os, map (objToMei os) objs).

(** ** Reading MEI *)

(** meireader.py:1486-1493. *)
Definition otype_from (dis place : str) : option otype :=
  if str_eqb place (S_ "above") then
    if str_eqb dis (S_ "8") then Some Va8 else if str_eqb dis (S_ "15") then Some Ma15 else if str_eqb dis (S_ "22") then Some Da22 else None
  else if str_eqb place (S_ "below") then
    if str_eqb dis (S_ "8") then Some Vb8 else if str_eqb dis (S_ "15") then Some Mb15 else if str_eqb dis (S_ "22") then Some Db22 else None
  else None.

(** meireader.py:1518-1549: the elements that become octave lines. *)
Definition octave_types (es : list octElt) : list (otype * span) :=
  flat_map (fun e => match otype_from (e_dis e) (e_place e) with Some t => [(t, e_span e)] | None => [] end) es.

(** meireader.py:1541-1549: what [_ppOctaves] leaves for the notes; [k] counts the
    octave lines, in place of the random id. *)
Fixpoint ppOctaves (k : N) (hs : list span) (m : attrs) : attrs :=
  match hs with
  | [] => m
  | s :: hs' =>
      let i := removeOctothorpe (startid s) in
      let j := removeOctothorpe (endid s) in
      let m1 := match i with [] => m | _ => setAttr m i (S_ "m21OttavaStart") (show_N k) end in
      let m2 := match j with [] => m1 | _ => setAttr m1 j (S_ "m21OttavaEnd") (show_N k) end in
      ppOctaves (N.succ k) hs' m2
  end.
(** meireader.py:2403-2423, [addOttavas]. *)
Definition addOttavas (m : attrs) (b : list (str * list str)) (n : str) : list (str * list str) :=
  fold_left (fun b u => addTo u n b) (opt_ids m n (S_ "m21OttavaStart") ++ opt_ids m n (S_ "m21OttavaEnd")) b.
Definition ends_read (hs : list span) (ns : list str) : list (list str) :=
  map snd (fold_left (addOttavas (ppOctaves 0 hs noAttrs)) ns (bundle 0 hs)).

(** meireader.py:4766-4771 (and 4829-4844): the octave of a note. *)
Definition octFromMei (a : oattr) : Z :=
  match a_oct a with Some o => o | None => match a_ges a with Some o => o | None => 4 end end.
Definition objFromMei (w : wobj) : obj :=
  match w with
  | WNote i a => ONote i (octFromMei a)
  | WChord i ns => OChord i (map (fun n => (fst n, octFromMei (snd n))) ns)
  | WRest i => ORest i
  end.

(** meireader.py:1534-1538 and 9428-9450: octave lines are transposing, and filled. *)
Definition read_mei (fill : str -> str -> list str) (es : list octElt) (ws : list wobj) : list ottava * list obj :=
  let objs := map objFromMei ws in
  let ts := octave_types es in
  let ls := ends_read (map snd ts) (map obj_id objs) in
  (map (fun tl => fillOttava fill (Ott (fst tl) true (snd tl))) (combine (map fst ts) ls), objs).

(** ** Parts of music21 and Humdrum *)

(** A part: its pitches as numbers of semitones, each with the octave line that it is
    under; the semitones from written to sounding pitch of its instruments, [None] for
    an instrument without transposition; and whether it is at sounding pitch ([None]:
    not known). *)
Record part := Part { p_sounding : option bool; p_inst : option Z; p_notes : list (Z * option (otype * bool)) }.

(** m21utilities.py:1070-1080, [isTransposingInstrument]; the case of an interval of no
    semitones that is not a perfect unison is left out. *)
Definition isTransposing (p : part) : bool := match p_inst p with Some t => negb (t =? 0) | None => false end.

Definition perform (n : Z * option (otype * bool)) : Z * option (otype * bool) :=
  match n with (z, Some (t, true)) => (z + 12 * octaves t, Some (t, false)) | _ => n end.
Definition undo (n : Z * option (otype * bool)) : Z * option (otype * bool) :=
  match n with (z, Some (t, false)) => (z - 12 * octaves t, Some (t, true)) | _ => n end.
Definition by_inst (d : Z) (p : part) (n : Z * option (otype * bool)) : Z * option (otype * bool) :=
  match p_inst p with Some t => (fst n + d * t, snd n) | None => n end.

(** music21's [Stream.toSoundingPitch] and [toWrittenPitch]. *)
Definition toSounding (p : part) : option part :=
  match p_sounding p with
  | None => None
  | Some b => Some (Part (Some true) (p_inst p) (map perform (if b then p_notes p else map (by_inst 1 p) (p_notes p))))
  end.
Definition toWritten (p : part) : option part :=
  match p_sounding p with
  | None => None
  | Some b => Some (Part (Some false) (p_inst p) (map undo (if b then map (by_inst (-1) p) (p_notes p) else p_notes p)))
  end.

(** humdrumfile.py:729-740, 2302, 11877: the part made of the notes of a Humdrum
    staff, whose octave lines are not transposing, and which is at sounding pitch. *)
Definition read_hum (inst : option Z) (ns : list (Z * option otype)) : option part :=
  let p := Part (Some true) inst (map (fun n => (fst n, option_map (fun t => (t, false)) (snd n))) ns) in
  if isTransposing p || existsb (fun n => match snd n with Some _ => true | None => false end) ns then toWritten p else Some p.

(** staffdata.py:58-68, [_transposeWrittenToSounding]. *)
Definition writtenToSounding (p : part) : option part :=
  match p_sounding p with
  | Some false => if isTransposing p then toSounding p else Some p
  | _ => Some p
  end.
(** The notes that are written, with the types of their octave lines. *)
Definition write_hum (p : part) : option (list (Z * option otype)) :=
  match writtenToSounding p with
  | Some p => Some (map (fun n => (fst n, option_map fst (snd n))) (p_notes p))
  | None => None
  end.

(** ** Transpositions in MEI *)

(** meireader.py:2151-2170 of [_transpositionFromAttrs]: the steps with octaves; the
    generic interval is one more. *)
Definition trans_steps (diat semi : Z) : Z :=
  if Z.abs (semi - diat) >? 5 * (Z.abs semi / 12 + 1) then
    if semi <? 0 then diat - 7 * (Z.abs semi / 12)
    else if semi >? 0 then diat + 7 * (Z.abs semi / 12)
    else diat
  else diat.
Definition generic (steps : Z) : Z := if steps <? 0 then steps - 1 else steps + 1.

(** meiscore.py:222-244, [makeStaffDefElement]: all attributes of a <staffDef>; and
    meireader.py:3818-3824: the transposition that is read from them, as texts of steps
    and semitones. *)
Definition staffDefToMei (inst : option Z) (n lines : str) : list (str * str) := [(S_ "n", n); (S_ "lines", lines)].
Definition transFromMei (a : list (str * str)) : option (option str * str) :=
  match assoc_str (S_ "trans.semi") a with Some s => Some (assoc_str (S_ "trans.diat") a, s) | None => None end.
(** meireader.py:9416: a part that is read is at written pitch; without a transposition
    (the labels from which an instrument could be told are not written either) its
    instrument is one that does not transpose.  A transposition in the file would be
    found by [int] from the texts; [num] is that function. *)
Definition partThroughMei (num : str -> Z) (p : part) : part :=
  Part (Some false) (option_map (fun t => num (snd t)) (transFromMei (staffDefToMei (p_inst p) (S_ "1") (S_ "5")))) (p_notes p).
