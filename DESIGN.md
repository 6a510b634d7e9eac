# Formal model of converter21 (Rocq / Coq 8.16.1)

The code under /repo is read as text only.  Everything below is a hand-written
functional model of selected Python functions, with theorems proved about the
model by Coq's kernel.

## Trusted base

* Coq 8.16.1's kernel.
* For each theorem, what `Print Assumptions` lists (see "Assumptions" below;
  the target is "Closed under the global context" everywhere).
* The hand translation of Python to Gallina.  Every definition in a model file
  cites the file and lines it models and says where it simplifies.

## Conventions of the model

* **Strings** are `list ascii` (type `str`).  Python's Unicode strings are
  restricted to 8-bit characters; `\d`, `isdigit`, `upper`, `lower`, `strip` are
  ASCII only.
* **Numbers.**  Python's `HumNum` (float or Fraction, normalised by music21's
  `opFrac`) is an exact rational `Q`.  `opFrac` is treated as the identity on
  values.  This is true of the code as long as values are exactly
  representable in a float or have a denominator of at most 65535; outside that
  range music21 rounds and the model does not.  Wherever the code looks at
  `.numerator`/`.denominator`, the model applies `Qred`.  Results are stated
  with `==` (`Qeq`).
* **Exceptions** are values (`None` or an explicit error constructor).
* **Loops** are structural recursion, folds, or recursion on fuel; when fuel is
  used, running out is an explicit error and a theorem shows it never happens.
* **Mutable objects** are explicit states threaded through; when aliasing
  matters (shared lists) the heap cell is modelled.

## Layout

* `theories/*Model.v`: models only (definitions, with citations).
* `theories/*Spec.v`: small independent specifications.
* `theories/*Proofs.v`: lemmas.
* `theories/Props*.v`: the property theorems: each is a statement, an
  `exact`, and `Print Assumptions`; beside each, an `Example` that a concrete
  case meets its hypotheses.
* Names: a theorem for property Cnn starts with `Cnn_`.  `_partial` marks a
  theorem that proves only part of the property; `_refuted` marks a proof that
  the full property is false of the code, with a witness.

## Plan per property

| Id | What is modelled | How proved |
|----|------------------|------------|
| C01 | durationToRecip, recipToDuration, as string functions over decimal numerals | case analysis on the branches; decimal print/parse round trip by induction |
| C02 | recipToDuration with its memo table as explicit state | refutation by a two-call history; invariant "cache agrees with the function" by induction over histories with one scale |
| C03 | kernRecipFromM21Duration | case analysis, reuse of C01 lemmas |
| C04 | _createRecipTokenFromDuration | as C01 |
| C05 | kern pitch writer and importer's pitch readers | induction on repeated letters |
| C06 | base-40 functions | finite table by computation lifted to all octaves by arithmetic |
| C07 | kernToMidiNoteNumber | induction on repeated letters |
| C08 | base-7 functions | arithmetic (lia with div/mod) |
| C09 | transposition strings | decimal print/parse round trip over Z |
| C10, C11 | HumHash as nested association lists | refinement to a flat finite map by induction over operation sequences |
| C12 | _cleanSpacesAndColons and readString | refutation (escaped colons stay escaped), and a conditional round trip |
| C13 | createTokensFromLine / createLineFromTokens | induction on the line |
| C14 | readString | induction on text |
| C15, C16, C19 | analyzeSpines, adjustSpines, getMergedSpineInfo; stitchLinesTogether | simulation against an independent spine-count specification; refutation for a lone `*v` |
| C17 | stitchLinesTogether + makeForwardLink on a token graph | invariant by induction |
| C18 | analyzeTracks | induction on the line |
| C20 | assignDurationsToTrack etc. | invariant of the worklist |
| C21, C22, C23, C24 | line passes of the rhythm analysis | list induction over Q |
| C25 | tpq, getLcm | number theory over Z |
| C26, C27 | strand analysis, null resolution | refutation + induction |
| C28 | slur analysis | stack machine vs. matching specification |
| C29 | tie analysis | association-list invariant |
| C30 | accidental analysis | simulation between the code's state and a performer's state |
| C31 | signifiers | invariant over records |
| C32, C33 | ottavas, rscale | fold invariants |
| C34, C35 | grid manipulators and side columns | per-staff arithmetic; reader's rules as specification |
| C36, C37 | measure insertion and emission | sortedness invariant / permutation |
| C38, C39 | duration splitting | greedy invariant; refutation |
| C40 | staff group trees | refutation + conditional |
| C41 | xml ids | injectivity of the base-26 numeral |
| C42 | camelCase | string induction |
| C43, C44 | dates | print/parse |
| C45, C46 | measure events | stable sort / fold |
| C47 | tremolo expansion | refutation + arithmetic |
| C48 | key signatures | finite computation, complete domain |
| C49 | barline styles | finite computation, complete domain |
| C50 | token caches | invariant over histories |
| C51 | track extraction | list induction |
| C52 | parameter set insertion | sortedness invariant |
| C53 | rest position | arithmetic |
| C54 | spine colours with aliasing | refutation |
| C55 | hasPickup | fold vs. specification |
| C56 | beam strings | counting invariant |
| C57, C58 | track ends; labels of merged spines | counting over the spine pass; label algebra; refutations |
| C59, C66 | dotCount, durationNoDots, rhythm display | power-of-two arithmetic over Q |
| C60 | EDTF dates | print/parse; refutations |
| C61 | staff-position names | decimal round trip; refutation below octave 0 |
| C63, C73 | barline tokens out and in | finite computation over styles, all measure numbers by string induction |
| C64 | repeated-text regions | state machine against an interval specification |
| C65 | rest positions through export and import | arithmetic per clef |
| C67, C68 | slurs and ties as made for each note | stack machine; per-note case analysis |
| C69, C70, C72 | layout parameter lookup, reference records, mensural rhythms | string induction |
| C71, C78, C79, C80 | signifier records | fold over records; print/parse |
| C74, C75, C76, C77 | measure lines | permutation and sortedness invariants |
| C81 | lines of the exported grid | per-kind case analysis over all grids |
| C82 | layout comments linked along strands | forest of links, induction along paths |
| C83 | articulations out and in | scanner over all strings; refutations |
| C84, C85, C86 | MEI time stamps | continued-fraction invariant, best approximation, error bounds for any accurate rounding |
| C87 | barlines of MEI measures | case analysis per boundary, induction over measures, sections and endings |
| C88 | beams, tuplets and tremolos in an MEI layer | stack invariant over laminar intervals, stable sorting |
| C89, C90 | beams and tuplets found for export to MEI | invariant over interleaved voices, projection to a voice, bracket words |
| C91 | ties found for export to MEI | invariant over open ties, projection to a pitch |
| C92, C93 | measures of an imported Humdrum file | chain of measures, induction on the loop |
| C94, C95 | voices of a measure and the rests that fill gaps | two-pass invariant on sub-spine counts; shape of a built layer |
| C96 | repeat endings of an imported Humdrum file | label in force by snoc induction; brackets are the maximal runs |
| C97 | key and time signatures of imported measures | snoc induction: the token kept is the last of its kind; staves independent |
| C98 | measure numbers | regular expressions as automata on the token; the style strings hold no digit |
| C99 | times in an exported MEI layer | running position equals last offset written, by induction over the objects; flags as a fold |
| C100 | MEI durations | which attributes are left out, by cases; length of dots by induction |
| C101 | MEI tremolos | marks plus flags through the tables, by cases |
| C102 | MEI pitches | octave by the kind of ottava; accidentals by cases; ottavas by induction |
| C103 | MEI positions of unpitched notes and rests | division by seven |
| C104 | MEI clefs, keys, meters | by cases; numbers through printing and reading |
| C105 | MEI ties on chords | state invariant over the items of all layers |
| C106 | Humdrum beam levels | invariant on the beams of the last note; induction over the group |
| C107 | MEI beam levels | closed form of the three passes; simulation for what takes no part |
| C108 | MEI ids | invariant of the attributes over the list of elements; filter over the notes |
| C109 | layer numbers | induction over the voices |
| C110 | tuplet groups | induction over the notes; the loop for the end of a group |
| C111 | tuplets | invariant of starts and ends through all stages; arithmetic of ratios |
| C112 | lyrics | induction over notes, verses and columns; words by uniqueness of splitting |
| C113 | text of MEI elements | induction on the depth of the tree against an inductive relation |
| C114 | look of texts in MEI | composition of writer and reader, case analysis on styles |
| C115 | texts that name notes | induction over the lists of elements; disjointness of attribute names |
| C116 | lyrics in MEI | induction over verses and syllables; composition with the text reader |
| C117–C119 | Harte chord texts | the text as a syntax with a meaning (set of degrees); writer and reader each proved against the meaning; tables checked by computation row by row; the search for the kind by an invariant of the fold |
| C120–C122 | Ornaments, fermatas and wavy lines in Humdrum | the token as calm text around one ornament; base 40 as 2 + 4·position + white key, from which the neighbours follow; arbitrary states of the accidentals |
| C123 | Repair of beams | the run as a list of single changes, independent of the beams; every note is changed at most once; what holds after a change is kept by the others |
| C124, C125 | Ranges of date objects; birth and death in MEI | texts without the range divider; a text with another divider is no date, by its chunks; EDTF texts cut at dots and slashes |
| C126-C129 | Ornaments, fermatas and wavy lines in MEI | the attributes that each pass leaves for a note depend on its own elements only; invariant of the writer: a line is handled only after its first note; lines as pairs of ids, by permutation |
| C130-C132 | Octave lines and transpositions | ids of ends located by two passes; relations for what sounds and what is shown; arithmetic on steps and semitones |
| C133, C134 | Looks of notes, and articulations, in MEI | attributes looked up group by group; induction on lists of objects and of articulations |
| C135-C137 | Tuplets in MEI, read and written | structural induction on trees of elements; relation between notes with the tuplets around them and what is read; the search as a fold over segments |
| C138-C141 | Dynamics and hairpins in Humdrum | regular expressions as tests of words, inductive description of the standard values; induction over the moments of a column and over the staves and voices of a line |
| C142, C143 | Tempo texts and numbers in Humdrum | texts as lists of code points; the searches of the regular expressions found at the only bracket; the rest of the text carried through; witnesses by computation |
| C144, C145 | Arpeggios | what is read from a line by induction over the tokens of a staff and over the staves; attributes of all elements folded into the last one of each note |
| C146, C147, C148, C149 | Sections, endings, definitions and breaks in MEI | induction over nested elements with the waiting definitions as invariant, up to the order of objects in a measure; witnesses by computation |
| C150 | Ends of spanners in MEI | induction over the measures with the pending ends as invariant |
| C151 | Length of voices in MEI | sums and offsets over voices; the splitting of lengths from C-claims on durations |
| C152, C153 | metronome marks in MEI | attributes and texts of the written element, truncation of exact numbers; run over score definitions and tempos |
| C154, C155 | titles, numbers and related works in heads of MEI | every element with what it adds; the works with their links computed for each choice of works present; adding without duplicates |
| C156 | composers in heads of MEI, with dates, places, nations and aliases | what each composer adds, by induction over the composers with the records found by their ids; texts per key without repetitions |
| C157, C158 | durations and measures repaired before export to Humdrum | notes slid by induction over a voice with the end of the one before; lengths of stacks by maxima over the parts; measures by the end of the one before |
| C159, C160 | chord symbols in MEI: text, type, figure | composition with C117/C118; replacing by skipping over text without the first character of the pattern; the loop of the reader with fuel, for all fuels |
| C161 | beams of Humdrum read as tremolos: time and notes | events that follow each other without gap; an inductive relation between marks and the notes they stand for; powers of two |
| C162, C163 | null tokens and invisible rests in exported Humdrum files | time left as end minus time of the slice, invariant of the loop; equivalence of the exception with overlapping notes |
| C164, C165 | A score's metadata in Humdrum reference records: what survives writing and reading; what cannot be written | Induction over the items and lines; the table of keys by computation |
| C166 | staff groups written into the system decoration of a Humdrum file come back when they cover the score; all are lost when a staff is in no group; what else is lost | induction on layouts of staves and groups, for the writer (staves still to do) and for the reader (balanced brackets, open groups) |
| C167, C168 | staff groups made from the trees that are read from a system decoration, or from the parts of a file without one | induction on layouts of staves and groups; staves still to do are always the rest of the layout |
| C169 | numbers of groups and parts in a system decoration become their staves; what the writer writes has none | texts as lists of pieces; induction on the tables and on the pieces |
| C170 | whether music21 is recent enough is the order of versions | induction on both versions against an inductive order |

## What is modelled

Line numbers of every function are in the comments of the model files; this is the list by file.

| Model file | Code |
|---|---|
| PyStr.v | Python string operations used below, and decimal numerals |
| RecipModel.v | convert.py 52-197 (`recipToDuration` with its cache, `durationToRecip`), m21convert.py 1508-1640, m21utilities.py 1190-1217, gridslice.py 186-213 |
| PitchModel.v, ClefModel.v | convert.py 839-1396, m21convert.py 51-59, 226-247, 769-881, 1667-1713, humdrumfile.py 7570-7600 |
| HashModel.v | humhash.py, all methods |
| LayoutModel.v | humparamset.py 18-176, m21convert.py 1724-1965, humdrumfile.py 9609-9752, humdrumline.py 1146-1168 |
| TextModel.v | humdrumline.py 882-970, humdrumfilebase.py 254-348, 644-647 |
| SpineModel.v | humdrumfilebase.py 364-432, 569-586, 716-1280, humdrumtoken.py 777-791, 2187-2267, 2490-2494, humdrumline.py 1028-1062, humaddress.py |
| RhythmModel.v | humdrumfilestructure.py 137-679, humdrumtoken.py 727-763, humdrumline.py 524-637, convert.py 225-269, 643-651 |
| StrandModel.v | humdrumfilestructure.py 388-392, 731-870, humdrumtoken.py 2400-2434, 2689-2699 |
| SlurModel.v | humdrumfilecontent.py 521-663, 843-905, humdrumfile.py 855-880, 7362-7395, 7746-7750, 8248-8403, convert.py 771-793 |
| AccidModel.v | humdrumfilecontent.py, the analysis of printed accidentals, and 1550-1582 |
| ContentModel.v | humdrumfilecontent.py: octave lines, rhythmic scaling, rest positions, repeated text; humdrumtoken.py 852-878; m21convert.py 993-1010; spine colours; pickup detection |
| TokenModel.v | humdrumtoken.py: text, caches, parameters, copies; humaddress.py; humdrumline.py 329-468; track extraction of humdrumfilebase.py |
| BeamModel.v | m21convert.py 2875-2902, humdrumfile.py 4259-4355 |
| BarModel.v | gridcommon.py 95-170, m21convert.py 110-158, 676-740, 2512-2520, 3033-3352, humgrid.py 1018-1162, convert.py 1398-1442, humdrumfile.py 1269-1291 |
| SignifierModel.v | humsignifiers.py 37-384, humdrumfile.py 7852-7865, 8231-8241 |
| TremoloModel.v | humdrumtools.py 42-89, 232-359, humdrumfilebase.py 1355-1410 |
| MeasureModel.v | measuredata.py 256-358, 544-572, gridmeasure.py 107-329, 544-861, 1025-1135, humdrumwriter.py 1304-1417 |
| GridModel.v | humgrid.py 44-340, 2042-2282, gridslice.py 47-606, gridside.py, gridpart.py, gridstaff.py |
| ManipModel.v | humgrid.py 1363-2004 |
| ArticModel.v | m21convert.py 454-594, 2538-2561 |
| TstampModel.v | mei/m21objectconvert.py 811-864, 933-993, mei/meireader.py 7062-7185, m21utilities.py 1656-1665 |
| MeiBarModel.v | mei/m21objectconvert.py 2025-2090, 2129-2184, mei/meimeasure.py 209-246, mei/meireader.py 662-669, 2179-2205, 6865-6913, 8897-9272 (barlines only) |
| LayerModel.v | mei/meilayer.py 95-617 (nesting only), m21utilities.py 1635-1653 |
| AnnotModel.v | mei/meiscore.py 463-483, 629-777 (without breaks of secondary beams), m21utilities.py 4483-4503 |
| TieModel.v | mei/meiscore.py 447-498, 779-905 |
| ImportModel.v | humdrum/humdrumfile.py 640-706, 819-831, 1023-1062, 10730-10756, 12357-12364, 12493-12509; humdrumfilebase.py 1782-1806; humdrumline.py 524-550 |
| VoiceModel.v | humdrum/humdrumfile.py 1454-1608, 1952-1972, 12511-12517; humdrumtoken.py 65-74 |
| EndingModel.v | humdrum/humdrumfile.py 761-792, 1085-1167 (endings only), 12304-12355 |
| SigModel.v | humdrum/humdrumfile.py 1171-1202 (signatures only), 1355-1439, 11901-11989 (signatures only); humdrumtoken.py 52, 1437-1439, 1545-1546 |
| NumberModel.v | humdrum/humdrumfile.py 1086-1088, 1300-1340; humdrumtoken.py 2002-2027; measuredata.py 163-165 |
| LayerFillModel.v | mei/meilayer.py 166-295 (without the enclosing elements); meistaff.py 139-141; meireader.py 6420-6435 |
| MeiDurModel.v | mei/m21objectconvert.py 659-762 (without grace notes); mei/meilayer.py 312-430; mei/meireader.py 576-620, 4573-4666, 5992-6103; shared/m21utilities.py 1157-1188 |
| MeiPitchModel.v | mei/m21objectconvert.py 262-392, 765-810, 1058-1065; mei/meiscore.py 501-529; mei/meireader.py 554-571, 711-733, 1486-1538, 4770-4860, 5156-5178; shared/m21utilities.py 1541-1579 |
| MeiSigModel.v | mei/m21objectconvert.py 504-656; mei/meireader.py 818-870, 2022-2136, 5646-5726 |
| ChordTieModel.v | mei/meireader.py 2210-2226, 4864-4893, 5450-5474, 5549-5567, 6371-6395 |
| BeamLevelModel.v | humdrum/humdrumfile.py 3434-3450, 3587-3706, 4230-4245 (tremolos left out; music21 Beams.getByNumber and setByNumber raise for a number that is not there) |
| MeiBeamModel.v | mei/meireader.py 2757-2913, 5987-5990; mei/meiscore.py 643-731; mei/m21objectconvert.py 82-86 (groups taken as given; see C89) |
| MeiIdsModel.v | mei/meireader.py 943-971, 1002-1024, 1053-1075, 1108-1128, 1240-1245, 1934-1944, 2246-2264, 2306-2318, 2425-2440; mei/meishared.py 127-139 |
| LayerNumModel.v | mei/meilayer.py 122-162; mei/meistaff.py 73; mei/meireader.py 6358-6367 |
| TupletModel.v | humdrum/humdrumfile.py 3408-3485, 4367-4840, 4946-5178, 5241-5276, 5488-5589; m21convert.py 626-645 |
| LyricModel.v | humdrumwriter.py `_addLyrics`, `_cleanSpaces`; gridside.py `setVerse`; gridmeasure.py `addVerseLabels` (columns); gridslice.py `transferSidesFromStaff` (verses); humdrumfile.py `_convertVerses`, `_getVerseLabels`, `_getVerseLabelText`, `_checkForVerseLabels`, `_splitSyllableBySpaces`; humdrumtoken.py `noteInLowerSubtrack`. Not modelled: spine colours, `ij`, how music21 makes raw text of a lyric and reads hyphens; `html.unescape` and `re.search` are arguments |
| MeiTextModel.v | meishared.py `textFromElem`, `chooseSubMeiElement`, the editorial element lists; meielement.py `get`, `findAll`, `findFirst`; tables of glyphs are arguments |
| MeiStyleModel.v | m21objectconvert.py `emitStyledTextElement`, `m21EnclosureToMeiRend`, `m21FontStyleAndWeightToMei`, `meiFontStyleAndWeightToM21FontStyle`, `m21PlacementToMei`, `_addStylisticAttributes` (texts); meireader.py `dirFromElement`, `_textExpressionFromPieces`, `_metronomeMarkFromTextExpressionAndMidiBPMStr` (text, place, style), `_ppDirsDynamsTempos`, `_ppConclude`, `addDirsDynamsTempos`; music21 setters and `html.unescape` are arguments |
| MeiLyricModel.v | m21objectconvert.py `m21LyricsToMei`, `m21SyllableToMei`; meireader.py `sylFromElement`, `verseFromElement`, `stringFromElement`; music21's treatment of raw texts with hyphens is an argument |
| HarteModel.v | m21utilities.py 3103-3680: `makeHarteFromChordSymbol`, `makeChordSymbolFromHarte`, `simplifyChordSymbol` and the tables; music21's intervals of generic number and alteration, written out; music21's table of chord types and the order of a python set as arguments; the display text of chord symbols is not modelled |
| OrnModel.v | m21convert.py 2579-2815 (expressions of a note), humdrumfilecontent.py 1190-1465 (neighbour accidentals), humdrumfile.py 6694-6835, 6907-6993, 7026-7360 (trills, fermatas, mordents, turns), humdrumtoken.py 2828-2888 | token = list of subtokens; layout parameters as triples; whole-number alterations; where a wavy line ends is not modelled; placements of ornaments are never written and are compared only as the reader sets them |
| BeamFixModel.v | m21utilities.py 4067-4178 (`fixupBadBeams`) | chord symbols and grace notes are left out of the voices; beams are number and type |
| LifeModel.v | m21utilities.py 1959-2041, 2440-2480, humdrumfile.py 10898-10923, meimetadata.py 1095-1133, meimetadatareader.py 876-900 | on top of DateModel.v; element texts without surrounding white space |
| MeiOrnModel.v | m21objectconvert.py 109-196, 766-800, 996-1048, 1201-1272, 1365-1592, meilayer.py 641-788, meireader.py 1278-1484, 2549-2742, 4538-4571, 6920-7060, 7359-7606, 8352-8408 | uuids of lines as numbers; music21's names of accidentals as a table; ornamental pitches not modelled; the order of the objects in a measure is an argument |
| OttavaModel.v | m21objectconvert.py 219-245, 320-379, 1940-1990, meireader.py 1475-1510, 2138-2180, 2403-2423, 3818-3824, 4766-4771, 9416, meiscore.py 222-300, 531-541, humdrumfile.py 729-740, 2302-2330, staffdata.py 58-68 | octaves of pitches only; what a line covers (Spanner.fill) is an argument; music21 toSoundingPitch/toWrittenPitch as arithmetic on pitches |
| MeiLookModel.v | m21objectconvert.py 109-156, 219-277, 335-395, 440-485, 693-763, 2187-2242, meireader.py 635-676, 767-817, 872-873, 4156-4215, 4831-5020, 5039-5210, 5245-5316, 5351-5640 | without pitch, ids, lyrics, durations, expressions; names of articulation classes as a table; music21 getGrace as a record; note heads that music21 accepts and texts that are zero are arguments |
| MeiTupletModel.v | meireader.py 1095-1192, 2940-3197, 4745-5035 (the parts on tuplets), 6163-6277, 6388-6398; m21objectconvert.py 88-107, 1185-1194, 1316-1357 | without notes inside chords, dur.ppq; durations are written lengths in quarters |
| DynamModel.v | m21convert.py 2178-2331, 2425-2439; humdrumwriter.py 2481-2488, 2930-2941 (what is put into the column); humdrumfile.py 8570-8925, 8940-9100, 10224-10267 | without colours and absolute positions; the four regular expressions as tests of whole words; Latin-1 white space |
| TempoModel.v | m21convert.py 1935-2104; sharedconstants.py 544-576; convert.py 395-565; humdrumtoken.py 1511-1528; humdrumfile.py 9750-9783, 10007-10014, 10113-10211, 10318-10363 | html.unescape only for the two entities that are written; decimal texts taken exactly (not as floats); style, placement and staff of the mark not modelled |
| ArpModel.v | m21convert.py 2562-2650; m21utilities.py 990-1015; humdrumfile.py 6534-6685; humdrumtoken.py 1161-1190, 1276-1285; m21objectconvert.py 1000-1056, 1145-1149, 1273-1315; meireader.py 1554-1653, 2508-2533 | measures by numbers; unique ids of spanners by their numbers; arpeggios at time stamps are those of C129 |
| MeiSectionModel.v | meireader.py 8897-9272, 9290-9412, 6771-6810, 5752-5798 | one part at a time; results of scoreDefFromElement and staffDefFromElement are arguments; contents of measures, objects for other staves, keys for accidentals and whole-score objects left out |
| MeiSpanEndModel.v | meireader.py 8496-8539, 8648-8691, 8741-8766 | one staff per spanner; offsets and numbers of measures are arguments |
| MeiFillModel.v | meireader.py 592, 8547, 8602-8603, 8800-8851, 6814-6863, 8874-8895 | voices as lists of lengths; splitting of complex rests left out; rationals for numbers |
| MeiTempoModel.v | m21objectconvert.py 1749-1779, 1922-1936, 1998-2025; meireader.py 3319-3323, 7988-8071, 8226-8243 | numbers exact (no float rounding); sign characters, `str` and `float` are arguments; infinities are not modelled |
| MeiWorkModel.v | meimetadata.py 36-66, 101-114, 1150-1413, 1508-1646, 1986-2025; meimetadatareader.py 44-72, 513-773, 1265-1409; m21utilities.py 2522-2551, 2596-2599, 2752-2920 | keys other than those of Humdrum are arguments; persons, dates, places, sources and encodingDesc left out; Koechel in the spelling with oe |
| MeiPersonModel.v | meimetadata.py 962-1147; meimetadatareader.py 74-84, 775-918; m21utilities.py 2722-2726 | dates as two functions (splitting a range, joining two dates) that are arguments; other contributors and the composers of sources left out |
| FixDurModel.v | m21utilities.py 1432-1469, 1656-1677, 4207-4480 | times in ticks; only notes, chords and rests; lengths of streams are those of their contents; components of a length are an argument |
| HarmModel.v | m21utilities.py 2920-3105, m21objectconvert.py 1889-1918, meireader.py 8073-8219 | texts are lists of code points; style and sub-elements left out; the offset of a time stamp not computed; html.unescape, findFigure and ChordSymbol of music21 are arguments |
| BeamTremModel.v | humdrumfile.py 5265-5485 (_checkForTremolo), 8466-8490 and 6000-6077 (durations and second notes of tremolos), m21utilities.py 1191-1200 | logarithms are exact (floating point in the code); the texts of durations (recip) are left out, the values are kept; base-40 pitches are numbers; beam levels, stems and slurs are left out |
| NullTokModel.v | humgrid.py 453-572, 648-670 (extendDurationToken), 725-767 (checkForNullDataHoles) | one voice of the grid at a time: durations of slices changed on the way by other voices are left out; times are whole numbers; a voice without token counts as missing |
| RefMetaModel.v | _addHeaderRecords of humdrumwriter.py (563-840), the reference lines of m21convert.py (3353-3491), the tables of keys and roles of m21utilities.py (2483-2691), reading of reference records in humdrumfile.py (894-960, 10768-10805, 10842-10936), addIfNotADuplicate and mdValueEqual. html.unescape, getMetronomeMarkInfo, the repair of dates and music21's conversion of values are arguments; the system decoration and what str prints for raw contributors are left out; metadata are a list of items as music21's all() lists them. |
| DecoModel.v | humdrumwriter.py 838-931 (_getSystemDecoration from the trees of C40, _appendRecursiveDecoString), humdrumfile.py 11339-11582 of _processSystemDecoration (cleaning, empty groups, single staff, nesting, the walk over the string, the check), m21convert.py 90-108; the expansion of instrument classes, groups, parts is a function taken as argument; stars, staves not in the score and files without decoration are not modelled; [pairing] is found by counting brackets and from the stack of open ones |
| DecoGroupModel.v | humdrumfile.py 11584-11651 (trees without decoration), 11707-11830 (_processStaffGroupDescriptionTree) for trees in the order that _sortGroupDescriptionTrees makes; names and instruments of groups, what _createPart does, and the branch for no parts at all (11631-11637, not reached when there is a staff, see 11269-11272) are left out |
| DecoExpandModel.v | humdrumfile.py 11309-11337 (numbers of groups and parts); re.sub of a pattern without special characters is a replacement of text; instrument classes (11298-11307) are left out |
| VersionModel.v | m21utilities.py 1678-1733 (m21VersionIsAtLeast); int() of a text is a function taken as argument; the four blocks of the code are one recursion |
| NamesModel.v, DateModel.v, DurationModel.v, StaffGroupModel.v | m21utilities.py 105-121, 1219-1531, 1734-2437, 2694-2719, 3894-3941 |

## Not modelled

File input and output, the MEI path except where cited, the MusicXML path, music21 itself, display-only
features (fonts, SMUFL text), and anything not cited in a model file.  In
particular: the main reader `humdrumfile.py` only where cited; the writer
`humdrumwriter.py` only where cited; the command line; the use the converters
make of the modelled functions.

## Places where the code does not do what its users would expect

Found while proving; each is behind a `_refuted` theorem or the condition of a `_partial` one.

* Rhythm text: the cache of `recipToDuration` ignores the scale (C02).
* Layout text: escaped colons stay escaped when read back (C12).
* Spines: a lone `*v` in the last field is dropped silently; manipulators on the opening line are not
  applied; manipulators on lines that do not start with an asterisk are treated inconsistently; track ends
  are filed under the last track (C57); merging columns of two spines gives a label without a track (C58).
* Strands: numbers are written past the end of a strand; merging two spines makes strands overlap; a file
  that ends in an opened spine raises; null tokens may refer to another spine (C26, C27).
* Rhythm analysis: the second sub-spine at a merge is not checked; a floating spine at time zero is
  rejected; the value -1 serves as "unknown" (C20-C24).
* Slurs and ties: phrases are counted with the slur marks; four or more elision marks raise; linked tie ends
  are matched by pitch only; a note with both `[` and `]` gets a start only (C28, C29, C67, C68).
* Octave lines: nested lines are not restored; a stray end makes the counter negative (C32).
* Accidentals: a turn changes the accidental state without a printed accidental (C30).
* Duration splitting at a crossing drops parts (`totalDurs[:foundIdx - 1]`, C39).
* Staff groups: of three equal groups beside a larger one some vanish (C40).
* Names below octave zero cannot be read back (C61).
* Dates: zero values are lost, "and" is read as "or", `onorbefore` and `onorafter` are lost (C43); ISO dates put
  the hour into the date part and cannot read negative years (C44); EDTF drops the relevance of single dates (C60).
* Key signatures beyond seven sharps or flats raise (C48); some barlines raise KeyError next to a start repeat (C49);
  dashed barlines are exported as regular (C63).
* Spine colours are shared between spines (C54).
* Pickup measures are reported when the first barline precedes all music (C55).
* Tokens: duration, subtokens and copied structure may be stale after the text changes (C50).
* Measures: grace notes overwrite earlier grace lines; marks added together are reversed (C75, C77); staff walk out of order
  when an empty staff precedes a later-starting one (C74).
* Tremolo: one repetition overwrites the next note (C47).
* Grid: side columns of parts from 100 on are not recorded; the column of note lengths of layout lines has a
  data token (C35, C81).
* Manipulators: merges of four staves on one line are read as one merge; a split that has to wait for the
  next line may come without its voice (C34).
* Signifiers: "above" wins over editorial accidentals; marks are used as regular expressions (C31, C78-C80).
* Articulations: an unplaced accent before a placed strong accent exchanges placements; two accents are read as one
  strong accent (C83).
* MEI time stamps: beats from 10 on lose precision (C84); the end of a spanner is read with the time signature of the
  measure in which it begins but written with the one at its end (C86).

* MEI barlines: tick, short and heavy-heavy barlines stop the export; heavy and heavy-light ones come back regular;
  only the top staff's barlines are written; an invisible barline hides a repeat at the same place (C87).  Barlines
  inside a measure are written with `form` but read from `rend`, so they always come back single (seen, not modelled).
* MEI layers: a tremolo between two notes that crosses a beam, or a beam with a grace note at its end after a tuplet
  that starts with it, is nested wrongly (C88).
* MEI tuplets: neighbouring tuplets without start and stop marks are merged into one (C90).
* MEI ties: the end of a tie is not checked for a stop mark, so a hanging tie is joined to a later note of its pitch; a tie into
  another voice goes to a later note of the first voice (C91).
* Import: all lines above a staff opened by `*+` to the right of the others are lost (C92); `!!ignore` does not hold for the
  first measure (C93); after `*x` across staves two notes of one line get into one voice (C94); a gap is filled twice if
  an interpretation stands before the note that ends it (C95).
* Endings: a section label with number 0 stops the import; `*>Alt2` after `*>A` is taken for an ending; the first endings of
  two sections are joined if they follow each other (C96).
* Key signatures: every unusual key signature (`*k[f#b-]`) is dropped, because its letters are put in upper case before
  they are compared with lower case ones (C48).
* Signatures: of two key or time signatures in one measure the first is lost; a change in the middle of the first measure
  is lost (C97).  The key signature used for ornaments is stored under the staff of the last token read, and since all
  measures are prepared first it is the last one of the piece (seen, not modelled).
* Measure numbers: only a suffix of one lower-case letter comes back (C98).
* MEI layers: a clef in a voice in the middle of a held note makes the layer too long; a clef, key or time signature of the
  measure is lost when it stands at a time at which no voice has a beginning (C99).

* MEI durations: a sounding length that is not one note with up to four dots is lost (C100).
* MEI tremolos: a tremolo on a note with flags comes back with as many marks too many as the note has flags; a tremolo between
  dotted notes with flags as well (C101).
* MEI pitches: a hidden triple accidental is lost; chords under an ottava that does not transpose come back an octave off,
  because the notes of the chord are not among the elements of the ottava (C102).
* MEI rests: under a percussion clef after another clef a moved rest is written with the earlier clef and read with the
  percussion clef (C103).
* MEI key signatures: of the number of sharps only the first digit is read (C104).  Hidden time signatures come back visible (C104).
* MEI ties on chords: chords wait by layer number only, not by staff, so with several staves a tie over a barline is lost or
  answered by a note of another staff; a note repeated after other notes is tied too (C105).
* Humdrum beams: a group whose first token is a rest gives its first note no beams and may stop the import with an
  IndexError (C106).  Hooks side by side are read as joined (C106).
* MEI beams: a beam that begins on a note in the middle of a group (an eighth and two sixteenths) is marked as kept on, never
  as begun (C107).  A secondary break before the last note of a group is not written (C107).
* MEI ids: a slur whose end note is read first gets its ends exchanged; every <beamSpan> with @startid or @endid is skipped
  (the condition is the wrong way round); of two hairpins that start at one note the first loses its start; a second tie
  ending on a note hides the tie that starts there (C108).
* MEI layers: a voice without a number before one with number 1 gives two layers numbered 1; numbers are read back as
  strings, so that a second export numbers the layers anew (C109).
* Humdrum tuplets: a tuplet of one note does not stop, so that the ordinary notes after it become tuplet notes; only the
  first change of the ratio in a measure splits a group, and a second one stops the import; for notes of a whole note or more
  the ratio is taken against a whole note (C111).

- C112: `_getVerseLabelText` calls `re.search(contents, r'^\d+$')` with its arguments swapped: the label is the pattern. Labels such as `d` get a full stop, labels such as `(` make the import fail, labels of digits never get their full stop.
- C112: `_checkForVerseLabels` runs once for each layer of a measure, but only the first layer with a note uses the labels up. With two layers, the label of a verse is put on the first syllable of the next measure again.
- C112: `_addLyrics` writes a backslash before a text that begins with `!` or `*`; `_convertVerses` does not take it away. A lyric `.` is written as a null token. A verse number over 100 drops all lyrics of the note.
- C112: `_convertVerses` zips the words of a `**vvdata` field with a list of one token, so all words but the first are dropped. A syllable that consists of a mark only leads to `content[0]` of an empty string.
- C113: text after a `choice` or `app` element is lost (the tail of the chosen alternative is read instead). Text of elements inside `supplied`, `add`, … is read twice. Text of `del` is read. A comment says that the first style is kept; it is the last.
- C114: `visible="false"` is written for hidden texts but not read; ovals become circles, rectangles vanish; only the first font family is written; texts are html-unescaped after the XML parser has already done so; `halign="justify"` stops the import.
- C115: `_ppDirsDynamsTempos` sets `name = 'Dynam'` for tempos: a tempo with @startid becomes a dynamic, and replaces the dynamic of the note. Two directions on one note: the last wins and takes over the style of the first. Size and colour are not passed on.
- C116: verse 0 is written without @n and read as verse 1; `between` is not read for verses; colour and size of syllables are not read; no @wordpos is written for whole words, so hyphens at their ends are taken as marks; what joins syllables of one note is lost. The code that undoes Verovio's centring (`text[0] == nbsp`) can never run, since `strip` has removed the no-break space.

- C117: with a degree taken away and another altered, `modifyDegrees` writes the alteration at its index in the unshortened list: another degree is overwritten. A degree taken away or altered is looked up by its unaltered spelling, so flat degrees stay (`C:min(*3)`). A bass just below the root is compared by pitch space and gets the degree of the interval the other way round. `simplifyChordSymbol` reads the interval of an added degree that may have none.
- C118: `'d' * (bassAlter - 1)` with a negative number is the empty text: a doubly flattened bass raises. A bare note name is read as the kind `pedal`. In the Humdrum importer the exception ends the import.

- **Ornaments in Humdrum (C120–C122).** The type of every fermata is exchanged (`;<` is written for upright, read as inverted);
  the start of a wavy line is never written because the result of `re.sub` (m21convert.py:2648) is dropped; inverted turns are
  written upper step first and read lower step first; one mordent on a chord is read as one per chord note; a mordent on an
  unpitched note is written `t`; a trill to the lower neighbour is read as a trill to the upper one; a step that is neither a
  minor nor a major second changes pitch unless its accidental is shown; ornaments at the end of a tie and second ornaments
  get no accidental at all.

- **Beams (C123).** `fixupBadBeams` forgets the last note of a voice that has no notes (only rests) in the next measure, and never looks at
  it if the voice is not in the last measure, so beams may still continue into nothing; in a score of one part the change of
  `stop` to `continue` is made with the beams of the next note before these are repaired, so a second run may undo it.

- **Dates of birth and death (C124, C125).** The MEI reader wants both elements, so a date of birth alone is lost; a single relative
  date (`<1594`) is cut at the slash of its EDTF text into a birth `..` and a death `1594`, and then not read; a mark on the year
  (`1685x`) comes back as a mark on the date (`~1685`); year 0 is written as nothing.

- **Ornaments in MEI (C126-C129).** The reader makes every trill an ordinary one; of two mordents on a note it makes one, with the form of the last and
  the accidental of the first; an upright fermata below the staff is read inverted; the wavy line of a single note has no end and is lost; a
  trill inside another line gets a line of its own and its end; a fermata at a time stamp goes to the left barline of the measure, if there is
  one, before the right one; the reader asks a turn for an attribute `delayed`, which music21's turns do not have, so delayed turns between notes
  are dropped; a mordent without form is lower by start id but upper by time stamp.

- **Octave lines (C130-C132).** The notes of a chord are looked up in the octave lines by themselves, so a chord under a line that is not transposing
  is written as it sounds and read as if shown so; the Humdrum reader makes the parts that have octave lines written ones, but the Humdrum writer makes
  only parts with transposing instruments sounding again, so notes under octave lines are written octaves off; the MEI writer never writes a
  transposition.

- **Looks in MEI (C133, C134).** `chordFromElement` does not read @stem.visible (nor @stem.len), so chords without stem get one; percussion chords are in no
  converter table and are replaced by a <space>; note heads other than seven are lost; colour and visibility of articulations are written but not read.

- **Tuplets in MEI (C135-C137).** The attributes of looks (bracket, places, number) of a <tupletSpan> are never reset in `_guessTuplets`, so later spans of the
  layer that do not have them inherit them; a bare @tuplet never makes a tuplet, since the counter that is asked is raised just before (but it does
  after a note that ends a tuplet that never began, which makes the counter negative); a span with the same first and last note is not read; a
  <tuplet> with only clefs or grace notes is dropped with what is in it; a note with a sounding length of its own loses the inner tuplets.

- **Dynamics in Humdrum (C138-C141).** 'p dolce' is read as 'p  dolce'; 'sempre piano p' as 'sempre p iano p' (the first occurrence of the matched text is
  replaced, not the matched one); what stands after a colon is lost, or taken for another parameter ('p dolce:rj'); a text without dynamic ('dolce') is
  not read; two dynamics at once are merged or lost; sf and sfz on notes lose their words and brackets; a dynamic between the ends of a hairpin turns it
  into a word; simultaneous and overlapping hairpins are lost; the variable holding the dynamic is not reset, so a second column repeats it; the reader
  looks for centring on the note instead of the dynamic, so centred dynamics of lower staves move to the top staff, as do those without a place.

- **Tempos in Humdrum (C142, C143).** A note as the last character of the text ("L'istesso tempo ♩ = ♪") makes the export fail (the text is looked at
  behind its end); four dots become three; the square breve becomes the ordinary one; of two notes the first is shown as `[quarter]` and the mark is
  for the second; of several lines only that with the note is kept; "♩ = ca. 120" is read as the literal text `[quarter] = ca. 120`; the number is
  rounded to a whole one though the text keeps its fraction. Not modelled: the pattern for names of tempos in `*MM[Adagio]` is a character class,
  so these are never read; texts of tempos in lower parts are read as text expressions.

- **Arpeggios (C144, C145).** In Humdrum the type (up, down, non-arpeggio) is not written; a voice that sustains (a null token) between the staves of an
  arpeggio, even one that sustains a hidden rest, ends it, and the upper part is lost; an arpeggio of a lower staff takes away every arpeggio over
  several staves to its right; two arpeggios over several staves become one; a chord with two marks (`:` `:`) is read as one over several staves (`::`).
  In MEI a note is in one arpeggio of each kind at most.

- **Sections of MEI (C147-C149).** A definition before a section without measures is lost; one at the end of a section, if a measure of the parent follows,
  is lost, or comes a section too late.  A page or system break at the beginning of any section, or in a section that has its measures in sections or
  endings only, is lost.  An ending directly in the score gets no bracket.
- **Measures of MEI (C150, C151).** The end of a spanner in a measure that has no staff of that number is lost, though the reader then makes that staff.
  A measure rest beside notes in one layer makes the voice too long.

- C152: a metronome mark for a thirty-second note cannot be written to MEI: m21objectconvert.py:2005 names its sign `metNote32thUp`, which sharedconstants.py calls `metNote32ndUp` (KeyError).
- C152: a metronome mark with words and neither a stated nor an implied number is not written to MEI at all (m21objectconvert.py:1763-1767); one with a number and no words is written with the number in @midi.bpm only; reading sets `numberImplicit`, so that a second writing has no @midi.bpm; 67.5 beats are read as 67; the style of the words is dropped when a number is shown and the whole text comes back in the font family `smufl`.
- C153: the number of a `<scoreDef>` (@midi.bpm) without a tempo at a time stamp is lost; if the first tempo names a note with @startid the number goes to the next tempo at a time stamp.
- C154: in the head of MEI files: that a movement name, a number, an alternative or popular title is a translation is not kept; languages are written in small letters, those of parents, groups, collections, associated works and catalogue names not at all; an opus number with a language comes back twice (identifier and title part); two movement names and no title give a title; a single title equal to the single movement name is deleted; the custom key `humdrum:ACO` becomes a collection.
- C155: `<relation rel="hasPart">` and `rel="host"` with a target that exists make the reader raise (meimetadatareader.py:604 and 627 use `group`, which is not bound there); a missing comma (meimetadatareader.py:1296) makes titles of the types number and movementNumber of related works count as their titles.
- C156: in the head of MEI files: the alias of a composer of whom neither dates nor a place nor a nation are known is not written (meimetadata.py:1041-1066); places, nations and dates beyond the number of composers are dropped; since equal texts are added only once, the second of two composers born in one place has none after reading and a third composer's place moves up to them; dates come back only if both the birth and the death are known; a contributor among the attributed composers whose own role is composer comes back as composer.
- C158: `fixupBadDurations` (called before every export to Humdrum) raises IndexError for scores whose parts have different numbers of measures (m21utilities.py:4283 assigns past the end of a list), the first case it is meant to repair; it is not idempotent; voices shorter than their measure stay short.
- C159: in MEI the label of a chord kind is cut at a slash (six-nine chords) and loses accidentals at its beginning; a text like `nc` or `no chord` wins over the regular form in @type.
- C160: a `<harm>` whose text begins with an accidental sign (such as the Roman numeral of a lowered degree) and that has no regular form in @type makes the import loop for ever with growing memory (m21utilities.py:3048 tests a variable that the loop does not change); flats are spelt the other way round than the comment there says: `b` in the bass and `-` in added degrees.
- C161: after `*tremolo`, three equal sixteenths become a dotted eighth with two slashes (six notes) since the logarithm is cut towards zero (humdrumfile.py:5354); runs longer than a quarter within a beam get too many slashes (5425); of an odd number of alternating notes the second pitch is lost (5478 takes the last note, which is the first pitch); alternating quarters or dotted eighths under a beam raise HumdrumInternalError (5470); a rest within the beam is ignored, so that the tremolo overlaps it (5288).
- C162: a slice that has no notes but takes time (a change of clef in the middle of a note, where nothing else starts; humdrumwriter.py:1735 makes such a slice) is not counted off the time that is left (humgrid.py:543-568), so that the export raises HumdrumInternalError or null tokens go on too long.
- C163: the search for the end of a hole is off by one three times (humgrid.py:748, 751, 754 compare with the length less one): in the last part or staff a hole is never longer than its slice, in others the invisible rest runs on through slices where the voice has notes, as long as it is the last voice there.

- C164: a language with a region (en-US), character references and the two characters backslash n in texts, names without a reference key, the role poet, the language of performers, a title equal to the movement name, and a translation with the words of its original do not survive Humdrum (m21convert.py 3431-3491, humdrumfile.py 10768-10936, 955-960).
- C165: writing raises an exception for a text with a language under a name without reference key (m21convert.py 3397-3402) and for a contributor without names (3470).
- C166: only staff groups are written into the system decoration (humdrumwriter.py:860), and a decoration that lacks a staff is given up (humdrumfile.py:11560): a score with a voice and a piano of which only the piano has a group is written with `{(s2,s3)}` and read without groups. A line is read as no symbol; a group with no symbol and no bar lines through it leaves no trace; a bracket that holds just a group with bar lines is read as one group.
- C167: groups without staves nested in each other in a system decoration can stop the import with an IndexError (humdrumfile.py:11728), as empty groups are removed in only two rounds, each of which looks for (), [], {} and <> once; s1((()))s2 is enough.
- C168: a score of two or more parts of one staff each and without staff groups comes back with a bracket around everything (humdrumfile.py:11639-11640).
- C169: in a system decoration p10 is read as p1 followed by the digit 0 when there is a part 1 (humdrumfile.py:11327-11333; the same for groups, 11314-11320), so that parts from 10 on get wrong staves.
- C170: m21VersionIsAtLeast takes a final version for older than its own alphas, and alpha 9 for newer than alpha 11 (m21utilities.py:1717-1727). register() asks for 9.0.0a11 and says that 9.1 is needed (__init__.py:42-43).
## Assumptions

`Print Assumptions` answers "Closed under the global context" for every theorem
below (each is followed by that command in its file).  No axiom of the standard
library is used; `coqchk` lists only the parameters `Coq.ssr.ssrunder.Under_rel`
of a module type that the standard library loads.

* C01: `C01_recip_roundtrip`
* C02: `C02_history_independent_refuted`, `C02_history_independent_partial`
* C03: `C03_note_rhythm_refuted`, `C03_note_rhythm_partial`
* C04: `C04_recip_spine`
* C05: `C05_pitch_roundtrip_refuted`, `C05_pitch_roundtrip_partial`
* C06: `C06_base40_injective`, `C06_base40_roundtrip`, `C06_triple_sharp_collides`
* C07: `C07_midi_number`
* C08: `C08_base7_roundtrip`, `C08_kern_roundtrip`, `C08_clef_baseline`, `C08_clef_baseline_roundtrip`, `C08_negative_positions_refuted`
* C09: `C09_transposition_roundtrip`, `C09_interval_roundtrip`
* C10: `C10_last_write_wins_refuted`, `C10_last_write_wins_partial`, `C10_unset_is_absent_partial`, `C10_other_entries_unchanged_partial`, `C10_origin_partial`
* C100: `C100_durations_partial`, `C100_third_refuted`
* C101: `C101_single_partial`, `C101_single_flags`, `C101_single_refuted`, `C101_pair_partial`, `C101_pair_refuted`
* C102: `C102_pitch_partial`, `C102_triple_refuted`, `C102_chord_refuted`
* C103: `C103_unpitched`, `C103_rest_partial`, `C103_rest_refuted`, `C103_low_refuted`
* C104: `C104_clef`, `C104_key_partial`, `C104_key_refuted`, `C104_unusual_refuted`, `C104_time_partial`, `C104_time_refuted`
* C105: `C105_same_measure`, `C105_next_measure_partial`, `C105_staves_refuted`, `C105_wrong_refuted`, `C105_pitch`
* C106: `C106_levels`, `C106_roundtrip_partial`, `C106_hooks_refuted`, `C106_break_refuted`, `C106_rests`, `C106_rest_first_refuted`
* C107: `C107_others`, `C107_levels_partial`, `C107_late_refuted`, `C107_roundtrip_partial`, `C107_roundtrip_refuted`
* C108: `C108_slurs`, `C108_slur_ends`, `C108_order_refuted`, `C108_hairpins_partial`, `C108_hairpins_refuted`, `C108_ties_partial`, `C108_ties_refuted`, `C108_beams_lost`, `C108_beams_refuted`, `C108_beams_bare`, `C108_tuplets`, `C108_no_tuplets`
* C109: `C109_numbers`, `C109_unique_partial`, `C109_unique_refuted`, `C109_reread`, `C109_reread_refuted`
* C11: `C11_listing_exact`, `C11_listing_exact_namespace`, `C11_listing_exact_pair`, `C11_colon_namespace_refuted`
* C110: `C110_groups`
* C111: `C111_brackets_partial`, `C111_starts_partial`, `C111_written`, `C111_single_refuted`, `C111_ratio_refuted`
* C112: `C112_lyrics_partial`, `C112_voices_partial`, `C112_text_refuted`, `C112_label_refuted`, `C112_stale_label_refuted`, `C112_vvdata_refuted`, `C112_mark_refuted`
* C113: `C113_text_partial`, `C113_layout`, `C113_unique`, `C113_tail_refuted`, `C113_twice_refuted`, `C113_deleted_refuted`, `C113_first_style_refuted`
* C114: `C114_text_partial`, `C114_hidden_refuted`, `C114_shape_refuted`, `C114_family_refuted`, `C114_words_refuted`, `C114_justify_refuted`
* C115: `C115_by_id_partial`, `C115_tempo_refuted`, `C115_two_refuted`, `C115_colour_refuted`
* C116: `C116_lyrics_partial`, `C116_number_refuted`, `C116_between_refuted`, `C116_colour_refuted`, `C116_hyphen_refuted`, `C116_elision_refuted`
* C117: `C117_harte_written_partial`, `C117_harte_written_refuted_bass`, `C117_harte_written_refuted_raises`
* C118: `C118_harte_read_partial`, `C118_harte_read_refuted_bare`, `C118_harte_read_refuted_bass`
* C119: `C119_harte_round_partial`, `C119_harte_round_refuted_flat_third`, `C119_harte_round_refuted_flat_alter`, `C119_harte_round_refuted_both`, `C119_harte_round_refuted_bass`
* C12: `C12_param_set_colon_refuted`, `C12_line_parameters_refuted`, `C12_layout_text_partial`, `C12_ampersand_refuted`, `C12_param_set_roundtrip`, `C12_set_parameter`
* C120: `C120_trill_partial`, `C120_mordent_partial`, `C120_turn_partial`, `C120_inverted_trill_refuted`, `C120_inverted_turn_refuted`, `C120_wide_step_refuted`, `C120_chord_mordent_refuted`, `C120_zero_mordent_refuted`, `C120_two_ornaments_refuted`, `C120_tied_refuted`
* C121: `C121_fermata_partial`, `C121_fermata_type_refuted`, `C121_two_fermatas_refuted`
* C122: `C122_continuation`, `C122_trill_extension_refuted`
* C123: `C123_continues_go_on_partial`, `C123_last_partial`, `C123_exactly_partial`, `C123_only_continues_and_stops`, `C123_good_unchanged`, `C123_idempotent_partial`, `C123_idempotent_refuted`, `C123_continues_go_on_refuted`, `C123_empty_voice_refuted`
* C124: `C124_range_partial`, `C124_kept_partial`, `C124_whole_partial`, `C124_range_refuted`, `C124_relevance_refuted`
* C125: `C125_life_partial`, `C125_birth_only_refuted`, `C125_relative_refuted`, `C125_mark_refuted`
* C126: `C126_ornaments_partial`, `C126_readable`, `C126_two_mordents_refuted`, `C126_lost_refuted`
* C127: `C127_fermatas_partial`, `C127_refuted`
* C128: `C128_lines_partial`, `C128_refuted`
* C129: `C129_first_note`, `C129_barline_partial`, `C129_barline_refuted`, `C129_between_notes_refuted`, `C129_either_way_partial`, `C129_either_way_refuted`
* C13: `C13_line_roundtrip_refuted`, `C13_line_roundtrip_partial`, `C13_tokens_wellformed`, `C13_tokens_roundtrip`
* C130: `C130_octave_lines_partial`, `C130_chords_refuted`
* C131: `C131_import`, `C131_export_partial`, `C131_round_partial`, `C131_round_refuted`
* C132: `C132_read`, `C132_lost_refuted`
* C133: `C133_looks_partial`, `C133_chord_stem_refuted`, `C133_percussion_refuted`, `C133_heads_refuted`
* C134: `C134_lists`, `C134_written_partial`, `C134_looks_refuted`
* C135: `C135_tuplet_elements`, `C135_all_read_refuted`, `C135_played_refuted`
* C136: `C136_tuplet_spans`, `C136_own_looks_partial`, `C136_own_looks_refuted`, `C136_single_note_refuted`, `C136_bare_refuted`, `C136_stray_end_refuted`
* C137: `C137_written_elements`, `C137_written_spans`, `C137_single_refuted`, `C137_numbers_refuted`, `C137_hidden_place_refuted`
* C138: `C138_dynamics_partial`, `C138_words_partial`, `C138_spaces_partial`, `C138_texts_refuted`, `C138_together_refuted`, `C138_on_notes_refuted`
* C139: `C139_hairpins_partial`, `C139_hairpins_refuted`
* C14: `C14_text_roundtrip`, `C14_lines_roundtrip`, `C14_stops_at_marker`, `C14_regenerates`, `C14_empty_text_refuted`
* C140: `C140_staff_of_dynamics_partial`, `C140_two_columns_refuted`
* C141: `C141_dynamics_partial`, `C141_hairpins_partial`, `C141_top_staff_partial`, `C141_places_refuted`
* C142: `C142_tempo_text_partial`, `C142_stable_partial`, `C142_final_note_refuted`, `C142_four_dots_refuted`, `C142_square_breve_refuted`, `C142_two_notes_refuted`, `C142_lines_refuted`, `C142_circa_refuted`, `C142_fraction_refuted`
* C143: `C143_plain_text_partial`, `C143_entity_refuted`
* C144: `C144_read`, `C144_staff_arpeggios_partial`, `C144_system_arpeggio_partial`, `C144_sustained_refuted`, `C144_hidden_rest_refuted`, `C144_two_marks_refuted`, `C144_staff_and_system_refuted`, `C144_two_systems_refuted`
* C145: `C145_arpeggios_partial`, `C145_type_read`, `C145_two_spanners_refuted`, `C145_two_marks_refuted`, `C145_named_once`
* C146: `C146_measures`
* C147: `C147_scoredef`, `C147_definitions_partial`, `C147_empty_section_refuted`, `C147_end_of_section_refuted`, `C147_late_refuted`
* C148: `C148_brackets`, `C148_ending_in_score_refuted`
* C149: `C149_breaks_partial`, `C149_other_parts`, `C149_section_start_refuted`, `C149_between_sections_refuted`
* C15: `C15_rules_deterministic`, `C15_spine_count_refuted`, `C15_spine_count_partial`
* C150: `C150_ends_partial`, `C150_one_end`, `C150_staff_missing_refuted`
* C151: `C151_voice`, `C151_length`, `C151_filled_partial`, `C151_rest_and_note_refuted`
* C152: `C152_number_partial`, `C152_shown_partial`, `C152_words_alone`, `C152_thirty_second_refuted`, `C152_words_only_refuted`, `C152_number_only_refuted`, `C152_fraction_refuted`, `C152_again_refuted`, `C152_style_refuted`, `C152_longa_refuted`
* C153: `C153_number_partial`, `C153_alone_refuted`, `C153_by_id_refuted`
* C154: `C154_titles_partial`, `C154_typed`, `C154_typed_popular`, `C154_custom_kept`, `C154_translated_refuted`, `C154_opus_refuted`, `C154_new_title_refuted`, `C154_same_title_refuted`, `C154_language_refuted`, `C154_custom_key_refuted`
* C155: `C155_no_raise_partial`, `C155_linked`, `C155_related_only`, `C155_raises_refuted`, `C155_left_out_refuted`
* C156: `C156_composers`, `C156_all_back`, `C156_alias_lost_refuted`, `C156_same_place_refuted`, `C156_unnamed_refuted`, `C156_role_refuted`, `C156_certainty`
* C157: `C157_no_overlap`, `C157_same_notes`, `C157_whole_rest`, `C157_earliest`, `C157_beside_refuted`
* C158: `C158_together`, `C158_fine_unchanged`, `C158_counts_refuted`, `C158_short_voice_refuted`, `C158_again_refuted`
* C159: `C159_chord_partial`, `C159_label_partial`, `C159_no_chord`, `C159_top_part`, `C159_nothing`, `C159_label_refuted_slash`, `C159_label_refuted_flat`, `C159_chord_refuted_text`, `C159_chord_refuted_kind`, `C159_no_chord_text`, `C159_blanks`
* C16: `C16_split_merge_restores`, `C16_merge_all_at_once`, `C16_track_of_subspine`
* C160: `C160_printed_partial`, `C160_figure_back_partial`, `C160_ends_partial`, `C160_leading_never_ends`, `C160_ends_refuted`, `C160_figure_back_refuted_bass`, `C160_figure_back_refuted_degree`, `C160_figure_back_refuted_diminished`, `C160_by_text_partial`, `C160_no_chord_of_text`, `C160_signs`
* C161: `C161_time_partial`, `C161_notes_partial`, `C161_repeated`, `C161_alternating`, `C161_runs`, `C161_untouched`, `C161_rest_ignored`, `C161_reads_partial`, `C161_reads_refuted`, `C161_time_refuted`, `C161_notes_dotted_refuted`, `C161_notes_long_refuted`, `C161_notes_odd_refuted`
* C162: `C162_raises_partial`, `C162_nulls_partial`, `C162_raises_refuted`
* C163: `C163_rest_partial`, `C163_last`, `C163_rest_refuted`
* C164: `C164_metadata_partial`, `C164_region_refuted`, `C164_text_refuted`, `C164_translation_refuted`, `C164_title_refuted`, `C164_no_key_refuted`, `C164_role_refuted`, `C164_numbers`, `C164_distinct`, `C164_movement_names_refuted`
* C165: `C165_writable_partial`, `C165_writable_refuted`
* C166: `C166_covering`, `C166_rooted`, `C166_uncovered`, `C166_single`, `C166_balanced`, `C166_voice_and_piano_refuted`, `C166_different_refuted`, `C166_line_refuted`
* C167: `C167_again`, `C167_covering`, `C167_none_lost`, `C167_empty_refuted`
* C168: `C168_default`, `C168_bracket_refuted`
* C169: `C169_plain`, `C169_written`, `C169_again`, `C169_numbers_partial`, `C169_ten_refuted`
* C17: `C17_links_symmetric`, `C17_links_consecutive`, `C17_links_follow_rules`
* C170: `C170_order`, `C170_bad`, `C170_final_refuted`, `C170_alpha_refuted`
* C18: `C18_subtrack_count_refuted`, `C18_subtracks_partial`
* C19: `C19_passes_agree_refuted`, `C19_passes_agree_partial`, `C19_counts_agree`
* C20: `C20_analysis_terminates`, `C20_start_times_refuted`, `C20_clock_partial`, `C20_start_times_partial`
* C21: `C21_sums_refuted`, `C21_sums_partial`, `C21_recip_sums`
* C22: `C22_measure`, `C22_pickup`
* C23: `C23_null_lines_even`, `C23_other_lines_kept`
* C24: `C24_fill`
* C25: `C25_tpq_least`
* C26: `C26_partial`, `C26_refuted`
* C27: `C27_partial`, `C27_order_partial`, `C27_refuted`, `C27_merge_refuted`, `C27_open_refuted`
* C28: `C28_slurs`, `C28_layers`, `C28_deep_elision_refuted`
* C29: `C29_linked_ties_refuted`, `C29_octave_wrap_refuted`, `C29_linked_ties_partial`
* C30: `C30_accidentals_partial`, `C30_accidentals_refuted`, `C30_key_signature`
* C31: `C31_signifier_tables_aligned`
* C32: `C32_octave_lines_partial`, `C32_octave_lines_refuted`
* C33: `C33_rscale`, `C33_rscale_total`
* C34: `C34_refuted`, `C34_partial`, `C34_importer_partial`
* C35: `C35_refuted`, `C35_partial`, `C35_writer_partial`
* C36: `C36_refuted`, `C36_grace_refuted`, `C36_label_refuted`, `C36_partial`, `C36_rising_partial`, `C36_note_exact_partial`
* C37: `C37_refuted`, `C37_marks_refuted`, `C37_partial`, `C37_other_measures`
* C38: `C38_split`, `C38_split_binary`, `C38_writable_test`, `C38_dots_found`, `C38_dots_not_found`
* C39: `C39_crossing_refuted`, `C39_crossing_partial`, `C39_tuplet_partial`
* C40: `C40_staff_groups_refuted`, `C40_staff_groups_partial`, `C40_staff_group_nesting`
* C41: `C41_xml_ids_distinct`
* C42: `C42_camel_to_words`, `C42_words_to_camel`
* C43: `C43_dates_refuted`, `C43_selection_refuted`, `C43_dates_partial`
* C44: `C44_iso_time_refuted`, `C44_iso_bce_refuted`, `C44_iso_partial`
* C45: `C45_sorted_events`
* C46: `C46_refuted`, `C46_partial`, `C46_total_partial`, `C46_elements_partial`
* C47: `C47_partial`, `C47_refuted`
* C48: `C48_key_signature_partial`, `C48_cancelling_naturals`, `C48_key_signature_refuted`, `C48_unusual_refuted`
* C49: `C49_combine_partial`, `C49_combine_refuted`
* C50: `C50_duration_refuted`, `C50_subtokens_refuted`, `C50_copyStructure_refuted`, `C50_classification_partial`, `C50_duration_partial`, `C50_recip_only`
* C51: `C51_track`, `C51_track_unfiltered`, `C51_primary`, `C51_manipulators_refuted`
* C52: `C52_layout_parameters`, `C52_index`
* C53: `C53_rest_on_line`
* C54: `C54_colors_partial`, `C54_single_track_partial`, `C54_colors_refuted`
* C55: `C55_pickup_partial`, `C55_pickup_exact`, `C55_no_barline`, `C55_pickup_refuted`
* C56: `C56_letters`, `C56_balance`, `C56_reading`, `C56_beam_groups`
* C57: `C57_track_ends_refuted`, `C57_track_ends_partial`
* C58: `C58_merged_track_refuted`, `C58_merged_track_partial`
* C59: `C59_undotted_length`
* C60: `C60_edtf_refuted`, `C60_edtf_relevance_refuted`, `C60_edtf_partial`
* C61: `C61_display_name_refuted`, `C61_display_name_partial`
* C63: `C63_barlines_partial`, `C63_repeats_kept`, `C63_barlines_refuted`
* C64: `C64_text_repetition`
* C65: `C65_rest_roundtrip`, `C65_odd_shift_refuted`
* C66: `C66_scaled_rhythm_partial`, `C66_scaled_rhythm_refuted`
* C67: `C67_slur_number_refuted`, `C67_slur_number_partial`
* C68: `C68_note_ties_refuted`, `C68_note_ties_partial`
* C69: `C69_layout_note_refuted`, `C69_layout_second_refuted`, `C69_layout_note_partial`, `C69_layout_token`
* C70: `C70_universal_value_refuted`, `C70_blank_key_refuted`, `C70_reference_partial`
* C71: `C71_refuted`, `C71_partial`
* C72: `C72_perfection_refuted`, `C72_mensural_partial`
* C73: `C73_repeat_both_refuted`, `C73_repeat_both_partial`
* C74: `C74_refuted`, `C74_partial`
* C75: `C75_refuted`, `C75_partial`, `C75_global_partial`, `C75_one_line_partial`
* C76: `C76_refuted`, `C76_partial`
* C77: `C77_refuted`, `C77_reverse_partial`, `C77_partial`
* C78: `C78_refuted`, `C78_partial`, `C78_meta_partial`
* C79: `C79_marked_note_colour`
* C80: `C80_refuted`, `C80_partial`
* C81: `C81_refuted`, `C81_partial`
* C82: `C82_layout_comments`
* C83: `C83_partial`, `C83_refuted`
* C84: `C84_partial`, `C84_refuted`
* C85: `C85_closest`, `C85_recovers`
* C86: `C86_partial`, `C86_refuted`
* C87: `C87_drawn_partial`, `C87_repeats_partial`, `C87_refuted`
* C88: `C88_nesting_partial`, `C88_names_partial`, `C88_refuted`
* C89: `C89_beams`, `C89_groups`
* C90: `C90_tuplets`, `C90_groups_partial`, `C90_refuted`
* C91: `C91_sound`, `C91_complete`, `C91_next_partial`, `C91_refuted`
* C92: `C92_one_measure_partial`, `C92_refuted`
* C93: `C93_ignore_partial`, `C93_refuted`
* C94: `C94_voices_partial`, `C94_total`, `C94_refuted`
* C95: `C95_filled`, `C95_once_partial`, `C95_start`, `C95_refuted`
* C96: `C96_endings_partial`, `C96_zero_refuted`, `C96_sections_refuted`, `C96_names_refuted`
* C97: `C97_changes_partial`, `C97_first_partial`, `C97_twice_refuted`, `C97_first_refuted`
* C98: `C98_numbers_partial`, `C98_first`, `C98_suffix_refuted`
* C99: `C99_positions_partial`, `C99_changes`, `C99_once`, `C99_held_refuted`, `C99_lost_refuted`
