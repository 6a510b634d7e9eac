(** What notes, chords and rests look like in MEI: stems, note heads, colours, sizes,
    visibility, grace notes and articulations, as they are written and read.

    music21 is taken as follows.  Stem directions are those of [NotRest]; a note head is a
    name, of which [valid] says whether music21 accepts it; an articulation is known by
    its name, which music21 makes from the name of its class. *)
From Coq Require Import List ZArith Ascii String Bool.
From Verif Require Import PyStr ClefModel MeiOrnModel.
Import ListNotations.
Local Open Scope bool_scope.
Local Open Scope list_scope.

Inductive stem := StemUp | StemDown | NoStem | StemDouble | StemAny.
(** From the style: hidden, colour (empty for none), cue size. *)
Record nstyle := NStyle { s_hide : bool; s_color : str; s_cue : bool }.
Record artic := Artic { ar_name : str; ar_look : look }.
(** A grace duration: whether it is an [AppoggiaturaDuration], whether time is stolen
    from the previous or the following note, and the slash. *)
Record grace := Grace { g_appogg : bool; g_prev : bool; g_foll : bool; g_slash : option bool }.

Record lnote := LNote { q_stem : stem; q_head : str; q_style : nstyle; q_artics : list artic; q_grace : option grace }.
(** The notes of a chord have no durations of their own. *)
Record lchord := LChord { h_stem : stem; h_style : nstyle; h_artics : list artic; h_grace : option grace; h_notes : list lnote }.

(** Elements of the file, with the elements in them. *)
Inductive node := Node (tag : str) (attrs : list (str * str)) (children : list node).
Definition n_attr (n : node) (a : string) : option str := match n with Node _ l _ => assoc_str (S_ a) l end.
Definition n_tag (n : node) : str := match n with Node t _ _ => t end.
Definition n_kids (n : node) : list node := match n with Node _ _ c => c end.

(** ** Writing *)

(** m21objectconvert.py:114-118. *)
Definition stem_attrs (s : stem) : list (str * str) :=
  match s with
  | NoStem => [(S_ "stem.visible", S_ "false")]
  | StemUp => [(S_ "stem.dir", S_ "up")]
  | StemDown => [(S_ "stem.dir", S_ "down")]
  | StemDouble | StemAny => []
  end.

(** m21objectconvert.py:120-134. *)
Definition head_table : list (str * str) :=
  [(S_ "cross", S_ "+"); (S_ "diamond", S_ "diamond"); (S_ "triangle", S_ "isotriangle"); (S_ "rectangle", S_ "rectangle");
   (S_ "slash", S_ "slash"); (S_ "square", S_ "square"); (S_ "x", S_ "x")].
Definition head_attrs (h : str) : list (str * str) := match assoc_str h head_table with Some v => [(S_ "head.shape", v)] | None => [] end.

(** m21objectconvert.py:144-156. *)
Definition style_attrs (s : nstyle) : list (str * str) :=
  (if s_hide s then [(S_ "visible", S_ "false")] else []) ++ attr_of "color" (s_color s) ++ (if s_cue s then [(S_ "cue", S_ "true")] else []).

(** m21objectconvert.py:440-460. *)
Definition artic_table : list (str * str) :=
  [(S_ "accent", S_ "acc"); (S_ "staccato", S_ "stacc"); (S_ "tenuto", S_ "ten"); (S_ "staccatissimo", S_ "stacciss"); (S_ "spiccato", S_ "spicc");
   (S_ "down bow", S_ "dnbow"); (S_ "up bow", S_ "upbow"); (S_ "harmonic", S_ "harm"); (S_ "snap pizzicato", S_ "snap");
   (S_ "strong accent", S_ "marc"); (S_ "doit", S_ "doit"); (S_ "plop", S_ "plop"); (S_ "falloff", S_ "fall"); (S_ "stopped", S_ "stop");
   (S_ "open string", S_ "open"); (S_ "double tongue", S_ "dbltongue"); (S_ "triple tongue", S_ "trpltongue"); (S_ "organ toe", S_ "toe");
   (S_ "organ heel", S_ "heel")].

(** m21objectconvert.py:462-485, [m21ArticulationsToMei]. *)
Definition articsToMei (l : list artic) : list node :=
  flat_map (fun x => match assoc_str (ar_name x) artic_table with
                     | Some v => [Node (S_ "artic") ((S_ "artic", v) :: stylistic (ar_look x)) []]
                     | None => []
                     end) l.

(** m21objectconvert.py:693-710 and 762-763: @grace. *)
Definition grace_attrs (g : option grace) : list (str * str) :=
  match g with
  | None => []
  | Some g =>
      let v := if g_appogg g then S_ "acc" else if g_prev g then S_ "unacc" else if g_foll g then S_ "acc"
               else match g_slash g with Some true => S_ "unacc" | Some false => S_ "acc" | None => S_ "unacc" end in
      [(S_ "grace", v)]
  end.

(** m21objectconvert.py:335-395, [_noteToMei], without pitch, ids and lyrics;
    [with_duration] is false within chords. *)
Definition noteToMei (with_duration : bool) (n : lnote) : node :=
  Node (S_ "note")
    ((if with_duration then grace_attrs (q_grace n) else []) ++ stem_attrs (q_stem n) ++ head_attrs (q_head n) ++ style_attrs (q_style n))
    (articsToMei (q_artics n)).

(** m21objectconvert.py:219-245, [m21ChordToMei]. *)
Definition chordToMei (c : lchord) : node :=
  Node (S_ "chord") (grace_attrs (h_grace c) ++ stem_attrs (h_stem c) ++ style_attrs (h_style c))
    (articsToMei (h_artics c) ++ map (noteToMei false) (h_notes c)).

(** m21objectconvert.py:247-277, [m21RestToMei]. *)
Definition restToMei (s : nstyle) : node :=
  if s_hide s then Node (S_ "space") (style_attrs (NStyle false (s_color s) (s_cue s))) []
  else Node (S_ "rest") (style_attrs s) [].

(** An object of a voice, with its music21 class as in [obj.classes]
    (m21objectconvert.py:2187-2199, 2230-2242): a percussion chord is of class
    [PercussionChord] and [ChordBase], neither of which is in the table; nothing is
    written for it, and its time is filled with <space> (meilayer.py:259-262). *)
Inductive lobj := LN (n : lnote) | LC (c : lchord) | LP (c : lchord) | LR (s : nstyle).
Definition classes (o : lobj) : list str :=
  match o with
  | LN _ => [S_ "Note"; S_ "NotRest"; S_ "GeneralNote"]
  | LC _ => [S_ "Chord"; S_ "ChordBase"; S_ "NotRest"; S_ "GeneralNote"]
  | LP _ => [S_ "PercussionChord"; S_ "ChordBase"; S_ "NotRest"; S_ "GeneralNote"]
  | LR _ => [S_ "Rest"; S_ "GeneralNote"]
  end.
Definition converters : list str :=
  [S_ "Note"; S_ "Unpitched"; S_ "Chord"; S_ "Rest"; S_ "Clef"; S_ "KeySignature"; S_ "TimeSignature"; S_ "Barline"].
Definition objToMei (o : lobj) : list node :=
  if existsb (fun c => one_of c converters) (classes o) then
    match o with LN n => [noteToMei true n] | LC c | LP c => [chordToMei c] | LR s => [restToMei s] end
  else [Node (S_ "space") [] []].

(** ** Reading *)

(** meireader.py:638-660, with music21's names of the classes. *)
Definition artic_classes : list (str * str) :=
  [(S_ "acc", S_ "accent"); (S_ "stacc", S_ "staccato"); (S_ "ten", S_ "tenuto"); (S_ "stacciss", S_ "staccatissimo"); (S_ "marc", S_ "strong accent");
   (S_ "spicc", S_ "spiccato"); (S_ "doit", S_ "doit"); (S_ "plop", S_ "plop"); (S_ "fall", S_ "falloff"); (S_ "dnbow", S_ "down bow");
   (S_ "upbow", S_ "up bow"); (S_ "harm", S_ "harmonic"); (S_ "snap", S_ "snap pizzicato"); (S_ "stop", S_ "stopped"); (S_ "open", S_ "open string");
   (S_ "dbltongue", S_ "double tongue"); (S_ "toe", S_ "organ toe"); (S_ "trpltongue", S_ "triple tongue"); (S_ "heel", S_ "organ heel")].

(** meireader.py:767-803, [_articulationsFromAttr]; [place] is that of the element, if
    there is one. *)
Definition articsFromAttr (place : option str) (v : str) : list artic :=
  let names := if str_eqb v (S_ "marc-stacc") then [S_ "strong accent"; S_ "staccato"]
               else if str_eqb v (S_ "ten-stacc") then [S_ "tenuto"; S_ "staccato"]
               else match assoc_str v artic_classes with Some n => [n] | None => [] end in
  let p := match place with Some p => if one_of p [S_ "above"; S_ "below"] then Some p else None | None => None end in
  map (fun n => Artic n (Look (Some p) [] None false [])) names.
(** meireader.py:805-817, [_makeArticList]. *)
Definition makeArticList (place : option str) (attr : str) : list artic := flat_map (articsFromAttr place) (split_char " "%char attr).
(** meireader.py:4156-4215, [articFromElement]. *)
Definition articFromElement (n : node) : list artic :=
  match n_attr n "artic" with
  | Some v => makeArticList (Some (match n_attr n "place" with Some p => p | None => [] end)) v
  | None => []
  end.
Definition articsOf (n : node) : list artic :=
  flat_map (fun k => if str_eqb (n_tag k) (S_ "artic") then articFromElement k else []) (n_kids n)
  ++ match n_attr n "artic" with Some v => makeArticList None v | None => [] end.

(** meireader.py:4831-4842: [getGrace] of music21. *)
Definition graceFromMei (n : node) : option grace :=
  match n_attr n "grace" with
  | Some v => if str_eqb v (S_ "acc") then Some (Grace true false false (Some false)) else Some (Grace false false false (Some true))
  | None => None
  end.

(** meireader.py:4925-4932, 5018-5020 (notes), 5565-5571, 5624 (chords), 5126-5133,
    5192 (rests). *)
Definition is_attr (n : node) (a : string) (v : string) : bool := match n_attr n a with Some x => str_eqb x (S_ v) | None => false end.
Definition styleFromMei (n : node) : nstyle :=
  NStyle (is_attr n "visible" "false") (match n_attr n "color" with Some c => c | None => [] end) (is_attr n "cue" "true").

(** meireader.py:672-676, 872-873: anything but up and down sets no direction. *)
Definition stemDirFromAttr (v : str) : stem := if str_eqb v (S_ "up") then StemUp else if str_eqb v (S_ "down") then StemDown else StemAny.

(** meireader.py:4959-4986, the stem of a note; [zero] says of a text whether it is a
    number that is zero. *)
Definition stemFromMei (zero : str -> bool) (n : node) : stem :=
  let s := match n_attr n "stem.dir" with Some v => stemDirFromAttr v | None => StemAny end in
  let s := match n_attr n "stem.len" with Some v => if zero v then NoStem else s | None => s end in
  if is_attr n "stem.visible" "false" then NoStem else s.

(** meireader.py:4934-4957, the head of a note. *)
Definition headFromMei (valid : str -> bool) (n : node) : str :=
  match n_attr n "head.shape" with
  | None => S_ "normal"
  | Some v =>
      match assoc_str v [(S_ "+", S_ "cross"); (S_ "diamond", S_ "diamond"); (S_ "isotriangle", S_ "triangle"); (S_ "rectangle", S_ "rectangle");
                         (S_ "slash", S_ "slash"); (S_ "square", S_ "square"); (S_ "x", S_ "x")] with
      | Some h => h
      | None => if valid v then v else S_ "normal"
      end
  end.

Definition noteFromMei (valid zero : str -> bool) (n : node) : lnote :=
  LNote (stemFromMei zero n) (headFromMei valid n) (styleFromMei n) (articsOf n) (graceFromMei n).

(** meireader.py:5351-5640, [chordFromElement]: @stem.dir is also set for the notes;
    @stem.len and @stem.visible are not read. *)
Definition chordFromMei (valid zero : str -> bool) (n : node) : lchord :=
  let notes := flat_map (fun k => if str_eqb (n_tag k) (S_ "note") then [noteFromMei valid zero k] else []) (n_kids n) in
  match n_attr n "stem.dir" with
  | Some v =>
      let s := stemDirFromAttr v in
      LChord s (styleFromMei n) (articsOf n) (graceFromMei n)
        (map (fun q => LNote s (q_head q) (q_style q) (q_artics q) (q_grace q)) notes)
  | None => LChord StemAny (styleFromMei n) (articsOf n) (graceFromMei n) notes
  end.

(** meireader.py:5039-5210, 5245-5316. *)
Definition objFromMei (valid zero : str -> bool) (n : node) : option lobj :=
  if str_eqb (n_tag n) (S_ "note") then Some (LN (noteFromMei valid zero n))
  else if str_eqb (n_tag n) (S_ "chord") then Some (LC (chordFromMei valid zero n))
  else if str_eqb (n_tag n) (S_ "rest") then Some (LR (styleFromMei n))
  else if str_eqb (n_tag n) (S_ "space") then Some (LR (NStyle true [] false))
  else None.
