{
 "claims": [
  {
   "property": "C01",
   "status": "proved",
   "theorems": [
    "C01_recip_roundtrip"
   ],
   "note": "Holds for every non-negative rational and any default-scale history."
  },
  {
   "property": "C02",
   "status": "partial",
   "theorems": [
    "C02_history_independent_refuted",
    "C02_history_independent_partial"
   ],
   "note": "Full statement is false (memo table ignores the scale): refuted with a witness; proved for histories using a single scale."
  },
  {
   "property": "C03",
   "status": "partial",
   "theorems": [
    "C03_note_rhythm_refuted",
    "C03_note_rhythm_partial"
   ],
   "note": "False for dotted notes in power-of-two-ratio tuplets (witness); proved for every other consistent duration."
  },
  {
   "property": "C04",
   "status": "proved",
   "theorems": [
    "C04_recip_spine"
   ],
   "note": ""
  },
  {
   "property": "C05",
   "status": "partial",
   "theorems": [
    "C05_pitch_roundtrip_refuted",
    "C05_pitch_roundtrip_partial"
   ],
   "note": "False below octave 0 (the importer drops the note; witness); proved for all octaves >= 0, all alterations, any display and surrounding token text."
  },
  {
   "property": "C06",
   "status": "proved",
   "theorems": [
    "C06_base40_injective",
    "C06_base40_roundtrip",
    "C06_triple_sharp_collides"
   ],
   "note": "Collision outside the stated range is shown too."
  },
  {
   "property": "C07",
   "status": "proved",
   "theorems": [
    "C07_midi_number"
   ],
   "note": ""
  },
  {
   "property": "C08",
   "status": "proved",
   "theorems": [
    "C08_base7_roundtrip",
    "C08_kern_roundtrip",
    "C08_clef_baseline",
    "C08_clef_baseline_roundtrip",
    "C08_negative_positions_refuted"
   ],
   "note": "Range: non-negative positions up to the converter's octave limit; negative positions shown not to round-trip."
  },
  {
   "property": "C09",
   "status": "proved",
   "theorems": [
    "C09_transposition_roundtrip",
    "C09_interval_roundtrip"
   ],
   "note": ""
  },
  {
   "property": "C10",
   "status": "partial",
   "theorems": [
    "C10_last_write_wins_refuted",
    "C10_last_write_wins_partial",
    "C10_unset_is_absent_partial",
    "C10_other_entries_unchanged_partial",
    "C10_origin_partial"
   ],
   "note": "False for colon-delimited texts of four or more parts (tail ignored; witness). Proved for all other argument forms and all histories."
  },
  {
   "property": "C100",
   "status": "partial",
   "theorems": [
    "C100_durations_partial",
    "C100_third_refuted"
   ],
   "note": "False for sounding lengths that are not one note with up to four dots (a third of a quarter, for instance). Music21's naming of lengths is a hypothesis (classifies)."
  },
  {
   "property": "C101",
   "status": "partial",
   "theorems": [
    "C101_single_partial",
    "C101_single_flags",
    "C101_single_refuted",
    "C101_pair_partial",
    "C101_pair_refuted"
   ],
   "note": "True for unflagged single notes and undotted pairs; false for single notes with flags and for dotted pairs with flags."
  },
  {
   "property": "C102",
   "status": "partial",
   "theorems": [
    "C102_pitch_partial",
    "C102_triple_refuted",
    "C102_chord_refuted"
   ],
   "note": "True for single notes under at most one ottava or under ottavas that transpose, with accidentals of up to two sharps or flats (three if shown) or quarter tones. False for hidden triple accidentals and for chords under an ottava that does not transpose. Which notes an ottava has after reading is not modelled; <accid> elements are never written."
  },
  {
   "property": "C103",
   "status": "partial",
   "theorems": [
    "C103_unpitched",
    "C103_rest_partial",
    "C103_rest_refuted",
    "C103_low_refuted"
   ],
   "note": "True from C0 up; for rests if the last clef is one for pitches. False for rests under a percussion clef after another clef, and below C0."
  },
  {
   "property": "C104",
   "status": "partial",
   "theorems": [
    "C104_clef",
    "C104_key_partial",
    "C104_key_refuted",
    "C104_unusual_refuted",
    "C104_time_partial",
    "C104_time_refuted"
   ],
   "note": "Clefs in use: proved. Keys: up to nine sharps or flats; false from ten on and for unusual signatures. Time signatures: numbers always; false for hidden ones and for signs on other meters. Music21's clef names are a hypothesis; its key tables are arguments."
  },
  {
   "property": "C105",
   "status": "partial",
   "theorems": [
    "C105_same_measure",
    "C105_next_measure_partial",
    "C105_staves_refuted",
    "C105_wrong_refuted",
    "C105_pitch"
   ],
   "note": "Within a measure, and over a barline when no other layer with the same number is read between, the repeated notes get the tie; ties go only to pitches that come again in a layer of that number. Refuted for several staves whose layers have the same number (the tie is lost, or answered from the other staff), and notes repeated later with others between are tied."
  },
  {
   "property": "C106",
   "status": "partial",
   "theorems": [
    "C106_levels",
    "C106_roundtrip_partial",
    "C106_hooks_refuted",
    "C106_break_refuted",
    "C106_rests",
    "C106_rest_first_refuted"
   ],
   "note": "Proved for all groups without breaks and for breaks between notes with as many beams whose first note is joined to the one before by all of them; rests inside groups are transparent. Refuted: two hooks side by side are joined, a break beside a hook leaves an end without a beginning, and a group that begins with a rest loses beams or raises."
  },
  {
   "property": "C107",
   "status": "partial",
   "theorems": [
    "C107_others",
    "C107_levels_partial",
    "C107_late_refuted",
    "C107_roundtrip_partial",
    "C107_roundtrip_refuted"
   ],
   "note": "Things that take no part are left alone and do not matter (full). Levels and round trip are proved for groups in which no beam begins on a middle note except at a break with full beams on both sides. Refuted: an eighth and two sixteenths (the second beam is kept on without having begun); a break before the last note is not written."
  },
  {
   "property": "C108",
   "status": "partial",
   "theorems": [
    "C108_slurs",
    "C108_slur_ends",
    "C108_order_refuted",
    "C108_hairpins_partial",
    "C108_hairpins_refuted",
    "C108_ties_partial",
    "C108_ties_refuted",
    "C108_beams_lost",
    "C108_beams_refuted",
    "C108_beams_bare",
    "C108_tuplets",
    "C108_no_tuplets"
   ],
   "note": "Slurs get their notes, however many there are at a note, but in reading order, so that one from the lower staff to the upper within a measure gets its ends exchanged. Ties and hairpins: proved when at most one starts and at most one ends at each note; refuted otherwise. Every <beamSpan> that names its ends is skipped. Other attributes of <tupletSpan>, and those without a list, are not modelled."
  },
  {
   "property": "C109",
   "status": "partial",
   "theorems": [
    "C109_numbers",
    "C109_unique_partial",
    "C109_unique_refuted",
    "C109_reread",
    "C109_reread_refuted"
   ],
   "note": "Distinctness is proved when the chosen numbers leave room for the voices before them; refuted otherwise, since numbers that come later are not looked at. Read layers get strings as ids, so that a second export numbers them anew."
  },
  {
   "property": "C11",
   "status": "proved",
   "theorems": [
    "C11_listing_exact",
    "C11_listing_exact_namespace",
    "C11_listing_exact_pair",
    "C11_colon_namespace_refuted"
   ],
   "note": "The documented NS1:NS2 single-argument form is shown not to work."
  },
  {
   "property": "C110",
   "status": "proved",
   "theorems": [
    "C110_groups"
   ],
   "note": "Logarithms and the layout parameters are taken as given; items without duration are not modelled."
  },
  {
   "property": "C111",
   "status": "partial",
   "theorems": [
    "C111_brackets_partial",
    "C111_starts_partial",
    "C111_written",
    "C111_single_refuted",
    "C111_ratio_refuted"
   ],
   "note": "Proved for layers in which every group has at least two notes, shorter than whole notes, with undotted lengths that differ by powers of two. False for a tuplet of one note (ordinary notes after it are taken in) and for a second change of the ratio (the import fails)."
  },
  {
   "property": "C112",
   "status": "partial",
   "theorems": [
    "C112_lyrics_partial",
    "C112_voices_partial",
    "C112_text_refuted",
    "C112_label_refuted",
    "C112_stale_label_refuted",
    "C112_vvdata_refuted",
    "C112_mark_refuted"
   ],
   "note": "Proved for a staff of one voice with any lyrics numbered 1 to 100 whose text is not changed by the escapes, and for any number of voices when there are no labels. Refuted: texts beginning with * or !, a lone full stop, a number over 100; labels that are regular expressions (the arguments of the search are swapped); labels with a second voice are repeated in the next measure; **vvdata** keeps the first word only; a syllable that is only a mark fails."
  },
  {
   "property": "C113",
   "status": "partial",
   "theorems": [
    "C113_text_partial",
    "C113_layout",
    "C113_unique",
    "C113_tail_refuted",
    "C113_twice_refuted",
    "C113_deleted_refuted",
    "C113_first_style_refuted"
   ],
   "note": "Proved for trees without text after choice/app, without elements inside passed-through editorial elements, and without del; each of these is refuted by a witness."
  },
  {
   "property": "C114",
   "status": "partial",
   "theorems": [
    "C114_text_partial",
    "C114_hidden_refuted",
    "C114_shape_refuted",
    "C114_family_refuted",
    "C114_words_refuted",
    "C114_justify_refuted"
   ],
   "note": "Proved for trimmed texts without ampersands, at most one family, and the four shapes MEI has; hidden texts, ovals, rectangles, second families, entities, outer spaces and halign=justify are refuted by witnesses."
  },
  {
   "property": "C115",
   "status": "partial",
   "theorems": [
    "C115_by_id_partial",
    "C115_tempo_refuted",
    "C115_two_refuted",
    "C115_colour_refuted"
   ],
   "note": "Proved for notes named by at most one direction and one dynamic, without size and colour; tempos (which become dynamics), two texts of a kind on one note, and size and colour are refuted by witnesses."
  },
  {
   "property": "C116",
   "status": "partial",
   "theorems": [
    "C116_lyrics_partial",
    "C116_number_refuted",
    "C116_between_refuted",
    "C116_colour_refuted",
    "C116_hyphen_refuted",
    "C116_elision_refuted"
   ],
   "note": "Proved for verse numbers other than 0, trimmed texts without ampersands and (whole words) without hyphens at the ends, not between the staves; verse 0, between, colour, size, hyphens and elisions are refuted by witnesses."
  },
  {
   "property": "C117",
   "status": "partial",
   "theorems": [
    "C117_harte_written_partial",
    "C117_harte_written_refuted_bass",
    "C117_harte_written_refuted_raises"
   ],
   "note": "Proved for all kinds of the table except the Neapolitan one, all roots, basses that are an at most once flattened degree within the octave, and modifications that add anything, and either take away or alter unaltered degrees. Refuted otherwise: a bass just below the root gets a wrong degree; an added ninth that says nothing of its alteration raises."
  },
  {
   "property": "C118",
   "status": "partial",
   "theorems": [
    "C118_harte_read_partial",
    "C118_harte_read_refuted_bare",
    "C118_harte_read_refuted_bass"
   ],
   "note": "Proved for all texts with a standard shorthand or a list of degrees, with music21's table as an argument of which the usual rows and the presence of the first degree are required. Refuted for a bare note name (read as a single note) and for basses beyond the seventh or doubly flattened (an exception)."
  },
  {
   "property": "C119",
   "status": "partial",
   "theorems": [
    "C119_harte_round_partial",
    "C119_harte_round_refuted_flat_third",
    "C119_harte_round_refuted_flat_alter",
    "C119_harte_round_refuted_both",
    "C119_harte_round_refuted_bass"
   ],
   "note": "Proved under the conditions of C117. Refuted: taking away or altering a flat third, altering and taking away at once, a doubly flattened seventh in the bass."
  },
  {
   "property": "C12",
   "status": "partial",
   "theorems": [
    "C12_param_set_colon_refuted",
    "C12_line_parameters_refuted",
    "C12_layout_text_partial",
    "C12_ampersand_refuted",
    "C12_param_set_roundtrip",
    "C12_set_parameter"
   ],
   "note": "False for the two parsers alone and for texts with ampersands (witnesses). Proved for the full import path of text directions under the listed conditions, and for parameter sets."
  },
  {
   "property": "C120",
   "status": "partial",
   "theorems": [
    "C120_trill_partial",
    "C120_mordent_partial",
    "C120_turn_partial",
    "C120_inverted_trill_refuted",
    "C120_inverted_turn_refuted",
    "C120_wide_step_refuted",
    "C120_chord_mordent_refuted",
    "C120_zero_mordent_refuted",
    "C120_two_ornaments_refuted",
    "C120_tied_refuted"
   ],
   "note": "Proved for one ornament per note (trills and turns on chords too) whose neighbours are a minor or major second away or carry a shown accidental; inverted turns only with equal steps. Refuted: trills to the lower neighbour, inverted turns with unequal steps, other intervals, mordents on chords, mordents of zero semitones, two ornaments on a note, ornaments at the end of a tie."
  },
  {
   "property": "C121",
   "status": "partial",
   "theorems": [
    "C121_fermata_partial",
    "C121_fermata_type_refuted",
    "C121_two_fermatas_refuted"
   ],
   "note": "Proved that the presence of a fermata is kept. Refuted for every note that its type is kept: upright and inverted are exchanged."
  },
  {
   "property": "C122",
   "status": "partial",
   "theorems": [
    "C122_continuation",
    "C122_trill_extension_refuted"
   ],
   "note": "Proved that notes under a wavy line get no trill of their own. Refuted for every trill that the wavy line is kept: its start is never written (the result of re.sub is dropped)."
  },
  {
   "property": "C123",
   "status": "partial",
   "theorems": [
    "C123_continues_go_on_partial",
    "C123_last_partial",
    "C123_exactly_partial",
    "C123_only_continues_and_stops",
    "C123_good_unchanged",
    "C123_idempotent_partial",
    "C123_idempotent_refuted",
    "C123_continues_go_on_refuted",
    "C123_empty_voice_refuted"
   ],
   "note": "Proved for scores whose notes are different objects and whose voices have notes in every measure in which they are; a voice with only rests in a measure, or missing from the next measure, keeps a beam that continues into nothing (refuted). A second repair changes nothing in scores of several parts; refuted for a single part."
  },
  {
   "property": "C124",
   "status": "partial",
   "theorems": [
    "C124_range_partial",
    "C124_kept_partial",
    "C124_whole_partial",
    "C124_range_refuted",
    "C124_relevance_refuted"
   ],
   "note": "Proved for date objects without zero values, with 'prior' or 'after' and with 'or' (the texts cannot tell the others); year 0, 'on or before' and 'and' refuted."
  },
  {
   "property": "C125",
   "status": "partial",
   "theorems": [
    "C125_life_partial",
    "C125_birth_only_refuted",
    "C125_relative_refuted",
    "C125_mark_refuted"
   ],
   "note": "Proved for two calendar date objects without a mark on the last value of a single date; a date of birth alone, a single relative date and a marked year are refuted."
  },
  {
   "property": "C126",
   "status": "partial",
   "theorems": [
    "C126_ornaments_partial",
    "C126_readable",
    "C126_two_mordents_refuted",
    "C126_lost_refuted"
   ],
   "note": "Proved for notes with at most one ornament of a kind, whatever else the staff has: direction, accidentals that MEI has, delay and placement come back; written files are always readable, and notes without get none. False otherwise: of two mordents a mixture is read; inverted trills become ordinary ones, hidden or unknown accidentals are lost, a timed delay becomes the default one, hidden and coloured ornaments lose that."
  },
  {
   "property": "C127",
   "status": "partial",
   "theorems": [
    "C127_fermatas_partial",
    "C127_refuted"
   ],
   "note": "Proved for notes, chords and rests with at most one fermata of one of MEI's shapes, not upright below the staff, not hidden or coloured. False otherwise: upright below the staff comes back inverted, inverted without placement comes back above, of two fermatas one is lost, a hidden one is seen."
  },
  {
   "property": "C128",
   "status": "partial",
   "theorems": [
    "C128_lines_partial",
    "C128_refuted"
   ],
   "note": "Proved for lines with different starts and ends, whose first note has one trill and whose notes between first and last have none. False otherwise: a line of one note is lost; a trill in the middle of a line gets its own line and takes the end from it. The notes between first and last are filled in by music21, which is not modelled."
  },
  {
   "property": "C129",
   "status": "partial",
   "theorems": [
    "C129_first_note",
    "C129_barline_partial",
    "C129_barline_refuted",
    "C129_between_notes_refuted",
    "C129_either_way_partial",
    "C129_either_way_refuted"
   ],
   "note": "Proved: the first object at the time that can have the expression gets it, and nothing else changes; the fermata on a right barline comes back if the measure has no left barline and nothing starts at its end; by id or by time the same expression is made. False otherwise: a left barline takes the fermata, a grace note at the end too; a delayed turn between notes is dropped; a mordent without form and accidental is lower by id and upper by time."
  },
  {
   "property": "C13",
   "status": "partial",
   "theorems": [
    "C13_line_roundtrip_refuted",
    "C13_line_roundtrip_partial",
    "C13_tokens_wellformed",
    "C13_tokens_roundtrip"
   ],
   "note": "False for lines that start with a tab (witness); proved for all others, and in the other direction."
  },
  {
   "property": "C130",
   "status": "partial",
   "theorems": [
    "C130_octave_lines_partial",
    "C130_chords_refuted"
   ],
   "note": "Proved for all lines and objects with each object under at most one line, with chords only under transposing lines. A chord under a line that is not transposing comes back an octave too high (refuted): the notes of a chord are looked up in the lines by themselves, and are in none. What a line covers between its ends is music21's Spanner.fill, taken as a function that keeps the ends."
  },
  {
   "property": "C131",
   "status": "partial",
   "theorems": [
    "C131_import",
    "C131_export_partial",
    "C131_round_partial",
    "C131_round_refuted"
   ],
   "note": "Import proved for all inputs. Export proved if the instrument transposes or there are no transposing octave lines; for every other file with octave lines, what is written is off by the octaves of the line (C131_round_refuted, for all such files)."
  },
  {
   "property": "C132",
   "status": "partial",
   "theorems": [
    "C132_read",
    "C132_lost_refuted"
   ],
   "note": "Reading proved for all octaves and all intervals from diminished to augmented ones within the octave. Writing has no transposition at all, so every note of a transposing instrument at written pitch comes back sounding off by it (C132_lost_refuted, for all such parts)."
  },
  {
   "property": "C133",
   "status": "partial",
   "theorems": [
    "C133_looks_partial",
    "C133_chord_stem_refuted",
    "C133_percussion_refuted",
    "C133_heads_refuted"
   ],
   "note": "Proved for all sequences of notes, chords and rests with the eight note heads that are written, stems up, down, none or unspecified for notes, and up, down or unspecified for chords. A chord without stem gets one, percussion chords become invisible rests, other heads become normal ones: each refuted for all such objects. Pitch, lyrics and duration are in other claims (C100, C102, C116)."
  },
  {
   "property": "C134",
   "status": "partial",
   "theorems": [
    "C134_lists",
    "C134_written_partial",
    "C134_looks_refuted"
   ],
   "note": "Lists in attributes proved for all lists; what is written is read back with names, order and placement if not hidden or coloured. Nothing that is read is ever hidden or coloured (C134_looks_refuted)."
  },
  {
   "property": "C135",
   "status": "partial",
   "theorems": [
    "C135_tuplet_elements",
    "C135_all_read_refuted",
    "C135_played_refuted"
   ],
   "note": "Proved for notes that no span names; false as stated: a tuplet without notes loses its clefs and grace notes, and a note with its own sounding length keeps only the outermost of nested tuplets (its length is right)."
  },
  {
   "property": "C136",
   "status": "partial",
   "theorems": [
    "C136_tuplet_spans",
    "C136_own_looks_partial",
    "C136_own_looks_refuted",
    "C136_single_note_refuted",
    "C136_bare_refuted",
    "C136_stray_end_refuted"
   ],
   "note": "Proved exactly, with the attributes of looks that a span lacks taken from the spans before it (so its own looks only if none of these has them: refuted); spans of one note and bare attributes are not read (refuted). Spans that overlap or are nested are not covered."
  },
  {
   "property": "C137",
   "status": "partial",
   "theorems": [
    "C137_written_elements",
    "C137_written_spans",
    "C137_single_refuted",
    "C137_numbers_refuted",
    "C137_hidden_place_refuted"
   ],
   "note": "Proved; curved brackets become straight, unusual combinations of shown numbers and the place of a tuplet of which nothing is seen are lost, and a single note of a span only begins it (refuted). Which notes a tuplet has, and whether it is written as element or span, is decided elsewhere."
  },
  {
   "property": "C138",
   "status": "partial",
   "theorems": [
    "C138_dynamics_partial",
    "C138_words_partial",
    "C138_spaces_partial",
    "C138_texts_refuted",
    "C138_together_refuted",
    "C138_on_notes_refuted"
   ],
   "note": "Standard dynamics alone or in brackets are kept exactly; among words without %, colon or other white space all words are kept, and the spaces too when a dynamic is followed by two spaces or nothing. Refuted: one space becomes two, texts that go on from the dynamic are torn apart, colons cut, texts without dynamic lost, two dynamics at once merged or lost, sf on notes loses its words."
  },
  {
   "property": "C139",
   "status": "partial",
   "theorems": [
    "C139_hairpins_partial",
    "C139_hairpins_refuted"
   ],
   "note": "For hairpins that follow one another (the next may begin where the last ends) with no dynamic strictly inside; dynamics elsewhere are all read. Refuted: a dynamic inside turns a hairpin into a word; simultaneous and overlapping ones are lost."
  },
  {
   "property": "C14",
   "status": "proved",
   "theorems": [
    "C14_text_roundtrip",
    "C14_lines_roundtrip",
    "C14_stops_at_marker",
    "C14_regenerates",
    "C14_empty_text_refuted"
   ],
   "note": ""
  },
  {
   "property": "C140",
   "status": "partial",
   "theorems": [
    "C140_staff_of_dynamics_partial",
    "C140_two_columns_refuted"
   ],
   "note": "For lines with at most one column for dynamics per staff; refuted with two, where a dynamic is read twice."
  },
  {
   "property": "C141",
   "status": "partial",
   "theorems": [
    "C141_dynamics_partial",
    "C141_hairpins_partial",
    "C141_top_staff_partial",
    "C141_places_refuted"
   ],
   "note": "Above and below on every staff, centred hairpins on lower staves; the top staff's centred and unplaced ones get the default of the staff. Refuted: centred dynamics and unplaced dynamics and hairpins of lower staves go to the top staff; a colon in the text makes a justification."
  },
  {
   "property": "C142",
   "status": "partial",
   "theorems": [
    "C142_tempo_text_partial",
    "C142_stable_partial",
    "C142_final_note_refuted",
    "C142_four_dots_refuted",
    "C142_square_breve_refuted",
    "C142_two_notes_refuted",
    "C142_lines_refuted",
    "C142_circa_refuted",
    "C142_fraction_refuted"
   ],
   "note": "Proved for one note, at most three dots, words without opening bracket, ampersand, backslash or newline, number directly after the equals sign; refuted for a note at the end of the text (nothing can be written), four dots, the square breve, two notes, several lines, words before the number, fractions."
  },
  {
   "property": "C143",
   "status": "partial",
   "theorems": [
    "C143_plain_text_partial",
    "C143_entity_refuted"
   ],
   "note": "Proved for texts without notes, opening brackets, ampersands and backslashes, with no spaces around; tabs come back as spaces. Refuted for texts with entities."
  },
  {
   "property": "C144",
   "status": "partial",
   "theorems": [
    "C144_read",
    "C144_staff_arpeggios_partial",
    "C144_system_arpeggio_partial",
    "C144_sustained_refuted",
    "C144_hidden_rest_refuted",
    "C144_two_marks_refuted",
    "C144_staff_and_system_refuted",
    "C144_two_systems_refuted"
   ],
   "note": "What is read from any line is given exactly. Arpeggios come back if no visible token stands between their notes and there is at most one per staff, or one over several staves; refuted with a sustained voice or the continuation of a hidden rest between, two marks on a chord, an arpeggio of a lower staff, two arpeggios over several staves."
  },
  {
   "property": "C145",
   "status": "partial",
   "theorems": [
    "C145_arpeggios_partial",
    "C145_type_read",
    "C145_two_spanners_refuted",
    "C145_two_marks_refuted",
    "C145_named_once"
   ],
   "note": "Proved if no note is in two arpeggios of the same kind; refuted otherwise (the last one wins)."
  },
  {
   "property": "C146",
   "status": "proved",
   "theorems": [
    "C146_measures"
   ],
   "note": "Measures directly in a score, which MEI does not allow, are excluded."
  },
  {
   "property": "C147",
   "status": "partial",
   "theorems": [
    "C147_scoredef",
    "C147_definitions_partial",
    "C147_empty_section_refuted",
    "C147_end_of_section_refuted",
    "C147_late_refuted"
   ],
   "note": "For files in which each section has a measure and a section that ends with definitions is followed by a section of the same parent; elsewhere definitions are lost or come late."
  },
  {
   "property": "C148",
   "status": "partial",
   "theorems": [
    "C148_brackets",
    "C148_ending_in_score_refuted"
   ],
   "note": "All endings within sections; an ending directly in the score gets no bracket."
  },
  {
   "property": "C149",
   "status": "partial",
   "theorems": [
    "C149_breaks_partial",
    "C149_other_parts",
    "C149_section_start_refuted",
    "C149_between_sections_refuted"
   ],
   "note": "For breaks after a measure of their own section or before all measures; others are lost."
  },
  {
   "property": "C15",
   "status": "partial",
   "theorems": [
    "C15_rules_deterministic",
    "C15_spine_count_refuted",
    "C15_spine_count_partial"
   ],
   "note": "False for manipulators on the opening line and for lone *v on mixed lines (refuted); proved for files whose opening line has only exclusive interpretations and whose manipulators are on lines starting with an asterisk."
  },
  {
   "property": "C150",
   "status": "partial",
   "theorems": [
    "C150_ends_partial",
    "C150_one_end",
    "C150_staff_missing_refuted"
   ],
   "note": "If the measure of the end has the staff; otherwise the end is lost. Spanners with several staves are not modelled."
  },
  {
   "property": "C151",
   "status": "partial",
   "theorems": [
    "C151_voice",
    "C151_length",
    "C151_filled_partial",
    "C151_rest_and_note_refuted"
   ],
   "note": "If measure rests without length stand alone in their voices."
  },
  {
   "property": "C152",
   "status": "partial",
   "theorems": [
    "C152_number_partial",
    "C152_shown_partial",
    "C152_words_alone",
    "C152_thirty_second_refuted",
    "C152_words_only_refuted",
    "C152_number_only_refuted",
    "C152_fraction_refuted",
    "C152_again_refuted",
    "C152_style_refuted",
    "C152_longa_refuted"
   ],
   "note": "Proved for stated numbers and all notes with a sign but the thirty-second (for which writing raises). Refuted: marks with words but no number are not written, numbers without words are not shown, fractions of beats are cut off, a second writing loses the number, the style of the words is lost."
  },
  {
   "property": "C153",
   "status": "partial",
   "theorems": [
    "C153_number_partial",
    "C153_alone_refuted",
    "C153_by_id_refuted"
   ],
   "note": "Proved for tempos at a time stamp. Refuted: the number of a score definition without a tempo is lost; a tempo that names a note gives no mark and leaves the number of the score definition to the next tempo."
  },
  {
   "property": "C154",
   "status": "partial",
   "theorems": [
    "C154_titles_partial",
    "C154_typed",
    "C154_typed_popular",
    "C154_custom_kept",
    "C154_translated_refuted",
    "C154_opus_refuted",
    "C154_new_title_refuted",
    "C154_same_title_refuted",
    "C154_language_refuted",
    "C154_custom_key_refuted"
   ],
   "note": "Proved for the properties named, equal texts and opus numbers with a language excluded, languages in small letters; the rest is refuted."
  },
  {
   "property": "C155",
   "status": "partial",
   "theorems": [
    "C155_no_raise_partial",
    "C155_linked",
    "C155_related_only",
    "C155_raises_refuted",
    "C155_left_out_refuted"
   ],
   "note": "Without hasPart and host nothing raises; those raise (refuted). C155_linked is for one related work."
  },
  {
   "property": "C156",
   "status": "proved",
   "theorems": [
    "C156_composers",
    "C156_all_back",
    "C156_alias_lost_refuted",
    "C156_same_place_refuted",
    "C156_unnamed_refuted",
    "C156_role_refuted",
    "C156_certainty"
   ],
   "note": "Exact list of what comes back per key for all composers. Refuted: aliases without other information, equal places of several composers, places without composers, roles that differ from the property."
  },
  {
   "property": "C157",
   "status": "proved",
   "theorems": [
    "C157_no_overlap",
    "C157_same_notes",
    "C157_whole_rest",
    "C157_earliest",
    "C157_beside_refuted"
   ],
   "note": "Times in ticks. Refuted: a whole rest beside a hidden one is not shortened."
  },
  {
   "property": "C158",
   "status": "partial",
   "theorems": [
    "C158_together",
    "C158_fine_unchanged",
    "C158_counts_refuted",
    "C158_short_voice_refuted",
    "C158_again_refuted"
   ],
   "note": "Proved for parts with equally many measures. Refuted: parts with different numbers of measures raise, voices shorter than the measure are not filled, a second repair may change the score."
  },
  {
   "property": "C159",
   "status": "partial",
   "theorems": [
    "C159_chord_partial",
    "C159_label_partial",
    "C159_no_chord",
    "C159_top_part",
    "C159_nothing",
    "C159_label_refuted_slash",
    "C159_label_refuted_flat",
    "C159_chord_refuted_text",
    "C159_chord_refuted_kind",
    "C159_no_chord_text",
    "C159_blanks"
   ],
   "note": "Proved for the chords whose Harte text is known to denote them (C117) and trimmed texts that do not say there is no chord. Refuted: the label of a six-nine chord is cut at the slash, a label beginning with an accidental loses it, a text like nc wins over the type, and kinds without Harte text depend on music21 understanding the printed text."
  },
  {
   "property": "C16",
   "status": "proved",
   "theorems": [
    "C16_split_merge_restores",
    "C16_merge_all_at_once",
    "C16_track_of_subspine"
   ],
   "note": ""
  },
  {
   "property": "C160",
   "status": "partial",
   "theorems": [
    "C160_printed_partial",
    "C160_figure_back_partial",
    "C160_ends_partial",
    "C160_leading_never_ends",
    "C160_ends_refuted",
    "C160_figure_back_refuted_bass",
    "C160_figure_back_refuted_degree",
    "C160_figure_back_refuted_diminished",
    "C160_by_text_partial",
    "C160_no_chord_of_text",
    "C160_signs"
   ],
   "note": "Refuted: a text without regular form that begins with an accidental sign (a flat VII) keeps the reader in a loop for ever; a flat bass and an added flat degree come back spelt the other way round; diminished sevenths are printed with a degree sign that does not come back."
  },
  {
   "property": "C161",
   "status": "partial",
   "theorems": [
    "C161_time_partial",
    "C161_notes_partial",
    "C161_repeated",
    "C161_alternating",
    "C161_runs",
    "C161_untouched",
    "C161_rest_ignored",
    "C161_reads_partial",
    "C161_reads_refuted",
    "C161_time_refuted",
    "C161_notes_dotted_refuted",
    "C161_notes_long_refuted",
    "C161_notes_odd_refuted"
   ],
   "note": "false in general: rests under the beam overlap the tremolo, totals like three sixteenths and long runs inside a beam get wrong slashes, odd alternations lose a pitch, alternating long notes raise; proved otherwise, for notes that are a quarter divided by two some times"
  },
  {
   "property": "C162",
   "status": "partial",
   "theorems": [
    "C162_raises_partial",
    "C162_nulls_partial",
    "C162_raises_refuted"
   ],
   "note": "holds when only lines of notes take time; false for a change of clef in the middle of a note where nothing starts: the export raises"
  },
  {
   "property": "C163",
   "status": "partial",
   "theorems": [
    "C163_rest_partial",
    "C163_last",
    "C163_rest_refuted"
   ],
   "note": "false in general: comparisons that are off by one let the rest run over later notes; proved for last parts and staves, and where a further voice follows"
  },
  {
   "property": "C164",
   "status": "partial",
   "theorems": [
    "C164_metadata_partial",
    "C164_region_refuted",
    "C164_text_refuted",
    "C164_translation_refuted",
    "C164_title_refuted",
    "C164_no_key_refuted",
    "C164_role_refuted",
    "C164_numbers",
    "C164_distinct",
    "C164_movement_names_refuted"
   ],
   "note": "Part: items that last, no two values alike, no title equal to a movement name. Missing: dates, and the refuted cases."
  },
  {
   "property": "C165",
   "status": "partial",
   "theorems": [
    "C165_writable_partial",
    "C165_writable_refuted"
   ],
   "note": "Exact characterisation of failure, except for contributors without names under otherContributor."
  },
  {
   "property": "C166",
   "status": "partial",
   "theorems": [
    "C166_covering",
    "C166_rooted",
    "C166_uncovered",
    "C166_single",
    "C166_balanced",
    "C166_voice_and_piano_refuted",
    "C166_different_refuted",
    "C166_line_refuted"
   ],
   "note": "Proved for all layouts of groups that cover the score, are in the order of the staves, have a symbol or bar lines, and are not a bracket around just a group with bar lines; and for all such layouts of groups and single staves inside a group without symbol around everything. Refuted when a staff is in no group, and for a line without bar lines and for a bracket around just a group with bar lines. Stars, instrument classes, groups and parts in the decoration are not modelled."
  },
  {
   "property": "C167",
   "status": "partial",
   "theorems": [
    "C167_again",
    "C167_covering",
    "C167_none_lost",
    "C167_empty_refuted"
   ],
   "note": "Proved for layouts as in C166 whose staves are in order in the file; that no staff of a tree gets lost is proved for all trees. Refuted for decorations with empty groups nested in each other (such as three pairs of parentheses), which raise. Sorting of trees, names and instruments of groups are not modelled."
  },
  {
   "property": "C168",
   "status": "partial",
   "theorems": [
    "C168_default",
    "C168_bracket_refuted"
   ],
   "note": "The groups of parts are proved, with exactly what is put around everything. Refuted: a bracket appears around everything, except when exactly one part has one staff or there is a single part of several staves. Parts and staves in order; sorting is not modelled."
  },
  {
   "property": "C169",
   "status": "partial",
   "theorems": [
    "C169_plain",
    "C169_written",
    "C169_again",
    "C169_numbers_partial",
    "C169_ten_refuted"
   ],
   "note": "Proved for decorations that name only staves (so for all that the writer writes, with which C167 needs no hypothesis on the expansion) and for numbers of one digit, in the file or not, with no digit in the text just after them. Refuted for part 10. Instrument classes are not modelled."
  },
  {
   "property": "C17",
   "status": "proved",
   "theorems": [
    "C17_links_symmetric",
    "C17_links_consecutive",
    "C17_links_follow_rules"
   ],
   "note": ""
  },
  {
   "property": "C170",
   "status": "partial",
   "theorems": [
    "C170_order",
    "C170_bad",
    "C170_final_refuted",
    "C170_alpha_refuted"
   ],
   "note": "Proved for the order in which texts are compared by characters and a version that goes on is later. Refuted for final versions against their alphas and for alphas of one against two digits."
  },
  {
   "property": "C18",
   "status": "partial",
   "theorems": [
    "C18_subtrack_count_refuted",
    "C18_subtracks_partial"
   ],
   "note": "The sub-track count is never set (refuted); the numbering is proved."
  },
  {
   "property": "C19",
   "status": "partial",
   "theorems": [
    "C19_passes_agree_refuted",
    "C19_passes_agree_partial",
    "C19_counts_agree"
   ],
   "note": "False for a lone trailing *v (refuted); proved otherwise, given that every *+ is followed by an exclusive interpretation."
  },
  {
   "property": "C20",
   "status": "partial",
   "theorems": [
    "C20_analysis_terminates",
    "C20_start_times_refuted",
    "C20_clock_partial",
    "C20_start_times_partial"
   ],
   "note": "Full statement refuted at merges (the sub-spine that arrives second is not checked). Proved for paths of tokens with one predecessor, in files without added spines and without lines mixing terminators and data."
  },
  {
   "property": "C21",
   "status": "partial",
   "theorems": [
    "C21_sums_refuted",
    "C21_sums_partial",
    "C21_recip_sums"
   ],
   "note": "Refuted for files whose start times are out of order (accepted by the analysis); proved when they are in order, and always for **recip files."
  },
  {
   "property": "C22",
   "status": "proved",
   "theorems": [
    "C22_measure",
    "C22_pickup"
   ],
   "note": "Measures after a barline and the lines before the first barline."
  },
  {
   "property": "C23",
   "status": "proved",
   "theorems": [
    "C23_null_lines_even",
    "C23_other_lines_kept"
   ],
   "note": "Between two timed lines with no barline in between."
  },
  {
   "property": "C24",
   "status": "proved",
   "theorems": [
    "C24_fill"
   ],
   "note": ""
  },
  {
   "property": "C25",
   "status": "proved",
   "theorems": [
    "C25_tpq_least"
   ],
   "note": "On the first call; the value is cached."
  },
  {
   "property": "C26",
   "status": "partial",
   "theorems": [
    "C26_partial",
    "C26_refuted"
   ],
   "note": "A null token with a data token above it in its strand refers to the last such token, and all other tokens to themselves, for files that merge columns of one spine only and open no spine on the last line. The full claim is false: a null token with no data above it in its spine refers to a note of the strand read before (C26_refuted)."
  },
  {
   "property": "C27",
   "status": "partial",
   "theorems": [
    "C27_partial",
    "C27_order_partial",
    "C27_refuted",
    "C27_merge_refuted",
    "C27_open_refuted"
   ],
   "note": "For files that merge columns of one spine only and open no spine on the last line: every token is on exactly one strand, strands are paths of linked tokens from a spine start or later branch of a split to their recorded end, in order. The recorded strand numbers are wrong after a merge (C27_refuted); merging two spines makes strands overlap (C27_merge_refuted); a file ending in an opened spine raises (C27_open_refuted)."
  },
  {
   "property": "C28",
   "status": "proved",
   "theorems": [
    "C28_slurs",
    "C28_layers",
    "C28_deep_elision_refuted"
   ],
   "note": "One layer: exact matching, hanging marks and recorded slurs. Any layers: C28_layers. Slurs marked with a link signifier, and the distinction between hanging closes and slurs starting at an ending, are not modelled. Four or more elision marks raise IndexError (C28_deep_elision_refuted)."
  },
  {
   "property": "C29",
   "status": "partial",
   "theorems": [
    "C29_linked_ties_refuted",
    "C29_octave_wrap_refuted",
    "C29_linked_ties_partial"
   ],
   "note": "False for a note with both a linked start and a linked end (tied to itself) and for pitches below octave 0 (share an entry with very high ones); proved, including what is recorded on both tokens, for notes with one tie mark each and pitches of octaves 0-9."
  },
  {
   "property": "C30",
   "status": "partial",
   "theorems": [
    "C30_accidentals_partial",
    "C30_accidentals_refuted",
    "C30_key_signature"
   ],
   "note": "Proved for every file without turns, any signifiers and layout requests; refuted for turns, which change the remembered state of a neighbouring position without printing anything there. Diatonic arrays are total functions."
  },
  {
   "property": "C31",
   "status": "proved",
   "theorems": [
    "C31_signifier_tables_aligned"
   ],
   "note": "For every list of lines: each table is read from the records, in file order, that mark notes, texts or editorial accidentals; the entries of the parallel lists come from the same record."
  },
  {
   "property": "C32",
   "status": "partial",
   "theorems": [
    "C32_octave_lines_partial",
    "C32_octave_lines_refuted"
   ],
   "note": "Proved when every stop closes an open line and nothing stays open after a stop; refuted for nested octave lines."
  },
  {
   "property": "C33",
   "status": "proved",
   "theorems": [
    "C33_rscale",
    "C33_rscale_total"
   ],
   "note": "Token durations are inputs; regular-expression digits are ASCII digits."
  },
  {
   "property": "C34",
   "status": "partial",
   "theorems": [
    "C34_refuted",
    "C34_partial",
    "C34_importer_partial"
   ],
   "note": "C34_refuted: two families of staves for which the lines the exporter writes cannot be read (four parts that all lose a voice; a part that gains a voice behind two that lose one). C34_partial/C34_importer_partial: for every other arrangement (well_placed), any number of parts, staves, side columns and voices, the lines read by the rules of splits and merges, and by the importer when it accepts them, lead exactly from the voices before to the voices after. Missing: that the importer accepts the merged spine names; whole-file placement of the lines."
  },
  {
   "property": "C35",
   "status": "partial",
   "theorems": [
    "C35_refuted",
    "C35_partial",
    "C35_writer_partial"
   ],
   "note": "Refuted beyond a hundred parts (the grid drops what it is told of them, but a chord symbol is still written). Proved for slices that hold nothing the grid does not know of: exact columns of the line, no token without a column, same side columns for every slice of the same staves and for the lines of exclusive interpretations, part and staff numbers and terminators; and proved that the writer's reports make every slice such a slice for up to a hundred parts. Missing: part-name lines (never written), lines of manipulators that the grid builds between slices."
  },
  {
   "property": "C36",
   "status": "partial",
   "theorems": [
    "C36_refuted",
    "C36_grace_refuted",
    "C36_label_refuted",
    "C36_partial",
    "C36_rising_partial",
    "C36_note_exact_partial"
   ],
   "note": "False in general (three witnesses). Proved for additions that are welcome at their turn, for additions in time order, and with an exact condition for notes."
  },
  {
   "property": "C37",
   "status": "partial",
   "theorems": [
    "C37_refuted",
    "C37_marks_refuted",
    "C37_partial",
    "C37_other_measures"
   ],
   "note": "False for a first measure without notes (barline lost) and for rehearsal marks without a barline before the music. Proved otherwise, with the exact arrangement."
  },
  {
   "property": "C38",
   "status": "proved",
   "theorems": [
    "C38_split",
    "C38_split_binary",
    "C38_writable_test",
    "C38_dots_found",
    "C38_dots_not_found"
   ],
   "note": "Termination, sum, writability of every part; no fallback for binary lengths; the writable test and the dot count are characterised."
  },
  {
   "property": "C39",
   "status": "partial",
   "theorems": [
    "C39_crossing_refuted",
    "C39_crossing_partial",
    "C39_tuplet_partial"
   ],
   "note": "False in full: a crossing in a later part of a composite total loses the part before it. Proved for lengths that need no tuplet and for one-note totals split inside one tuplet."
  },
  {
   "property": "C40",
   "status": "partial",
   "theorems": [
    "C40_staff_groups_refuted",
    "C40_staff_groups_partial",
    "C40_staff_group_nesting"
   ],
   "note": "Nesting, smallest parent and sibling order proved for every list of groups; 'exactly once' is false when three groups have the same staves beside a larger one, proved otherwise."
  },
  {
   "property": "C41",
   "status": "proved",
   "theorems": [
    "C41_xml_ids_distinct"
   ],
   "note": "Any prefix, any integers, any threshold of music21."
  },
  {
   "property": "C42",
   "status": "proved",
   "theorems": [
    "C42_camel_to_words",
    "C42_words_to_camel"
   ],
   "note": "First direction for every text without spaces; second for words without capitals, later words starting with a letter."
  },
  {
   "property": "C43",
   "status": "partial",
   "theorems": [
    "C43_dates_refuted",
    "C43_selection_refuted",
    "C43_dates_partial"
   ],
   "note": "Zeros (e.g. hour 0) and 'and' selections are lost; proved for non-zero values with any marks, 'prior'/'after', ranges and 'or' selections."
  },
  {
   "property": "C44",
   "status": "partial",
   "theorems": [
    "C44_iso_time_refuted",
    "C44_iso_bce_refuted",
    "C44_iso_partial"
   ],
   "note": "Times and negative years are not read back; proved for calendar dates."
  },
  {
   "property": "C45",
   "status": "proved",
   "theorems": [
    "C45_sorted_events"
   ],
   "note": ""
  },
  {
   "property": "C46",
   "status": "partial",
   "theorems": [
    "C46_refuted",
    "C46_partial",
    "C46_total_partial",
    "C46_elements_partial"
   ],
   "note": "False for gaps needing two rests: both begin at the same time. Proved when each gap can be one rest; in any gap the lengths add up."
  },
  {
   "property": "C47",
   "status": "partial",
   "theorems": [
    "C47_partial",
    "C47_refuted"
   ],
   "note": "One marked note or chord per column, spine without splits; value at least 8 and at least two notes. With one note the following token is overwritten (refuted). Fingered tremolos not modelled."
  },
  {
   "property": "C48",
   "status": "partial",
   "theorems": [
    "C48_key_signature_partial",
    "C48_cancelling_naturals",
    "C48_key_signature_refuted",
    "C48_unusual_refuted"
   ],
   "note": "Proved for -7..7 and with cancelling naturals anywhere; false beyond seven sharps or flats (the reader's table stops there); a signature that is not one of the usual fifteen is never read, whatever it holds."
  },
  {
   "property": "C49",
   "status": "partial",
   "theorems": [
    "C49_combine_partial",
    "C49_combine_refuted"
   ],
   "note": "The failing pairs are exactly characterised; false for an invisible, short, tick or dotted barline before a start repeat."
  },
  {
   "property": "C50",
   "status": "partial",
   "theorems": [
    "C50_duration_refuted",
    "C50_subtokens_refuted",
    "C50_copyStructure_refuted",
    "C50_classification_partial",
    "C50_duration_partial",
    "C50_recip_only"
   ],
   "note": "False in general: a duration, once asked for, survives a text change; a replacement subtoken with a space leaves a stale list; copyStructure leaves stale answers about the spine. For all other histories all 31 classifications and the subtokens are those of a fresh token, and the duration if not asked for before the last change."
  },
  {
   "property": "C51",
   "status": "partial",
   "theorems": [
    "C51_track",
    "C51_track_unfiltered",
    "C51_primary",
    "C51_manipulators_refuted"
   ],
   "note": "Proved for every file and combination of options, for the filters as the code defines them; the documented exception that the manipulator filter keeps exclusive interpretations is false."
  },
  {
   "property": "C52",
   "status": "proved",
   "theorems": [
    "C52_layout_parameters",
    "C52_index"
   ],
   "note": ""
  },
  {
   "property": "C53",
   "status": "proved",
   "theorems": [
    "C53_rest_on_line"
   ],
   "note": "Clefs attached automatically by another analysis are not modelled."
  },
  {
   "property": "C54",
   "status": "partial",
   "theorems": [
    "C54_colors_partial",
    "C54_single_track_partial",
    "C54_colors_refuted"
   ],
   "note": "Refuted: all tracks share one list. Proved exactly what the shared list holds, and the full claim for a track that alone has colours."
  },
  {
   "property": "C55",
   "status": "partial",
   "theorems": [
    "C55_pickup_partial",
    "C55_pickup_exact",
    "C55_no_barline",
    "C55_pickup_refuted"
   ],
   "note": "Refuted when the first barline precedes all music; proved when music of at most one measure precedes it, and the exact answer for every file not starting with a barline."
  },
  {
   "property": "C56",
   "status": "proved",
   "theorems": [
    "C56_letters",
    "C56_balance",
    "C56_reading",
    "C56_beam_groups"
   ],
   "note": "Secondary beam breaks are not modelled."
  },
  {
   "property": "C57",
   "status": "partial",
   "theorems": [
    "C57_track_ends_refuted",
    "C57_track_ends_partial"
   ],
   "note": "Ends are all filed under the last track (refuted); that every terminator is listed once is proved."
  },
  {
   "property": "C58",
   "status": "partial",
   "theorems": [
    "C58_merged_track_refuted",
    "C58_merged_track_partial"
   ],
   "note": "Two spines 1 and 2 merge to track 0, three crash (refuted); two spines with differing prefixes proved; sub-spines of one spine in C16."
  },
  {
   "property": "C59",
   "status": "proved",
   "theorems": [
    "C59_undotted_length"
   ],
   "note": "All texts, scales and histories at one scale."
  },
  {
   "property": "C60",
   "status": "partial",
   "theorems": [
    "C60_edtf_refuted",
    "C60_edtf_relevance_refuted",
    "C60_edtf_partial"
   ],
   "note": "A marked last value or a marked whole date is changed; proved otherwise."
  },
  {
   "property": "C61",
   "status": "partial",
   "theorems": [
    "C61_display_name_refuted",
    "C61_display_name_partial"
   ],
   "note": "False below octave 0; proved from octave 0 up."
  },
  {
   "property": "C63",
   "status": "partial",
   "theorems": [
    "C63_barlines_partial",
    "C63_repeats_kept",
    "C63_barlines_refuted"
   ],
   "note": "Repeats proved for every pair; shapes for single barlines and matching pairs; false for dashed barlines, which are exported as regular."
  },
  {
   "property": "C64",
   "status": "proved",
   "theorems": [
    "C64_text_repetition"
   ],
   "note": "One chain of tokens (nextToken0)."
  },
  {
   "property": "C65",
   "status": "proved",
   "theorems": [
    "C65_rest_roundtrip",
    "C65_odd_shift_refuted"
   ],
   "note": "music21's lowestLine is taken to be the diatonic number plus one; odd shifts are moved to a line by design."
  },
  {
   "property": "C66",
   "status": "partial",
   "theorems": [
    "C66_scaled_rhythm_partial",
    "C66_scaled_rhythm_refuted"
   ],
   "note": "Refuted when the scaled undotted duration itself needs dots; proved otherwise."
  },
  {
   "property": "C67",
   "status": "partial",
   "theorems": [
    "C67_slur_number_refuted",
    "C67_slur_number_partial"
   ],
   "note": "False for a token whose opening marks have different elision levels (witness); proved when each token's openings have one level, for any number of layers."
  },
  {
   "property": "C68",
   "status": "partial",
   "theorems": [
    "C68_note_ties_refuted",
    "C68_note_ties_partial"
   ],
   "note": "False for a note with both [ and ] (gets a start only); proved for all other notes, whatever is paired, hanging or linked. Styles and placements of ties are not modelled."
  },
  {
   "property": "C69",
   "status": "partial",
   "theorems": [
    "C69_layout_note_refuted",
    "C69_layout_second_refuted",
    "C69_layout_note_partial",
    "C69_layout_token"
   ],
   "note": "False in general: the note number of one parameter set is remembered for the following sets. Proved where numbered sets come last and at most one names the note, and for the token as a whole without restriction. int() is modelled on digit strings."
  },
  {
   "property": "C70",
   "status": "partial",
   "theorems": [
    "C70_universal_value_refuted",
    "C70_blank_key_refuted",
    "C70_reference_partial"
   ],
   "note": "False: a universal record's value comes back as its key, and a blank before the colon is accepted. Proved: key and value of ordinary records, key of universal ones."
  },
  {
   "property": "C71",
   "status": "partial",
   "theorems": [
    "C71_refuted",
    "C71_partial"
   ],
   "note": "A record that mentions two phrases sets only the first in the order they are tried (vertical stroke excepted). The partial theorem says exactly which record decides."
  },
  {
   "property": "C72",
   "status": "partial",
   "theorems": [
    "C72_perfection_refuted",
    "C72_mensural_partial"
   ],
   "note": "False when the perfection mark follows the rhythm letter; proved when the marks precede it."
  },
  {
   "property": "C73",
   "status": "partial",
   "theorems": [
    "C73_repeat_both_refuted",
    "C73_repeat_both_partial"
   ],
   "note": "For regular, heavy, final and heavy-light repeats; false for a heavy end repeat meeting a heavy-light start repeat."
  },
  {
   "property": "C74",
   "status": "partial",
   "theorems": [
    "C74_refuted",
    "C74_partial"
   ],
   "note": "Exactly once, in order and together: always. Increasing times: false if a staff without events stands before a staff that begins later; proved otherwise."
  },
  {
   "property": "C75",
   "status": "partial",
   "theorems": [
    "C75_refuted",
    "C75_partial",
    "C75_global_partial",
    "C75_one_line_partial"
   ],
   "note": "False for grace notes: the token of an earlier grace note line is replaced. Proved for notes, interpretations, labels and global lines."
  },
  {
   "property": "C76",
   "status": "partial",
   "theorems": [
    "C76_refuted",
    "C76_partial"
   ],
   "note": "False for the first line of a measure that ends with a line of the same kind. Proved otherwise."
  },
  {
   "property": "C77",
   "status": "partial",
   "theorems": [
    "C77_refuted",
    "C77_reverse_partial",
    "C77_partial"
   ],
   "note": "Before a line the order is reversed (proved); at the end of a measure it is kept (proved)."
  },
  {
   "property": "C78",
   "status": "partial",
   "theorems": [
    "C78_refuted",
    "C78_partial",
    "C78_meta_partial"
   ],
   "note": "Blanks at the end of the line become part of the definition. Proved without such blanks, for records with and without a signifier."
  },
  {
   "property": "C79",
   "status": "proved",
   "theorems": [
    "C79_marked_note_colour"
   ],
   "note": "The spine colour is a parameter; printing the words of a marked note is not implemented in the code."
  },
  {
   "property": "C80",
   "status": "partial",
   "theorems": [
    "C80_refuted",
    "C80_partial"
   ],
   "note": "The mark is used as a regular expression: a full stop as mark removes the whole text, other special characters raise an error. Proved for marks without special characters, of any length."
  },
  {
   "property": "C81",
   "status": "partial",
   "theorems": [
    "C81_refuted",
    "C81_partial"
   ],
   "note": "Refuted for layout lines with a column of note lengths (55 is written there). Proved for all other slices, and for layout lines without that column. Slices of local comments, which the writer never makes, are excluded."
  },
  {
   "property": "C82",
   "status": "proved",
   "theorems": [
    "C82_layout_comments"
   ],
   "note": "For every file meeting the stated conditions (record good_file); strands that never end get no links, as the statement says."
  },
  {
   "property": "C83",
   "status": "partial",
   "theorems": [
    "C83_partial",
    "C83_refuted"
   ],
   "note": "Proved for lists without repeated kinds in which no unplaced accent stands directly before a placed strong accent, and surroundings without articulation characters; C83_refuted shows that placements are exchanged in that case and that two accents are read as a strong accent."
  },
  {
   "property": "C84",
   "status": "partial",
   "theorems": [
    "C84_partial",
    "C84_refuted"
   ],
   "note": "Proved for beats below 10 with denominators up to 130, below 100 with denominators up to 13, and whole beats below 1000, time signature denominators up to 128; C84_refuted: in 12/8 an offset of 217/48 is read as 6935/1534."
  },
  {
   "property": "C85",
   "status": "proved",
   "theorems": [
    "C85_closest",
    "C85_recovers"
   ],
   "note": "For numerals of digits with or without a point; exponents and signs are not modelled. The floating-point value of the numeral is any function of it (closest) or accurate to 2^-50 (recovers)."
  },
  {
   "property": "C86",
   "status": "partial",
   "theorems": [
    "C86_partial",
    "C86_refuted"
   ],
   "note": "Proved when the end lies in one of the measures, the importer's time signature is the one in force at the end, and the beat is precise as in C84; C86_refuted: a time signature change between start and end moves the end, and an end after the last measure is lost."
  },
  {
   "property": "C87",
   "status": "partial",
   "theorems": [
    "C87_drawn_partial",
    "C87_repeats_partial",
    "C87_refuted"
   ],
   "note": "Proved for all scores whose staves agree, with barlines MEI knows, and repeats that start on the left and end on the right. Refuted without: heavy, heavy-light, tick and short barlines, barlines of lower staves, an invisible barline over a repeat, a start repeat at the end of the last measure."
  },
  {
   "property": "C88",
   "status": "partial",
   "theorems": [
    "C88_nesting_partial",
    "C88_names_partial",
    "C88_refuted"
   ],
   "note": "Proved for all voices where no note has two beams, only a tuplet and a beam that share a note may cross, and of two spanners with the same first note the longer ends later in time. Refuted without: a tremolo that crosses a beam, a beam with a grace note at its end, a tuplet and a beam that interleave without common notes."
  },
  {
   "property": "C89",
   "status": "proved",
   "theorems": [
    "C89_beams",
    "C89_groups"
   ],
   "note": "For all scores and beam marks. C89_groups: for voices whose beams are marked properly, nested groups included."
  },
  {
   "property": "C90",
   "status": "partial",
   "theorems": [
    "C90_tuplets",
    "C90_groups_partial",
    "C90_refuted"
   ],
   "note": "Nesting for all marks; exact groups if starts and stops are marked and each object lists as many tuplets as there are brackets around it. Refuted without marks: two unmarked triplets in a row become one tuplet."
  },
  {
   "property": "C91",
   "status": "partial",
   "theorems": [
    "C91_sound",
    "C91_complete",
    "C91_next_partial",
    "C91_refuted"
   ],
   "note": "Soundness and completeness for all parts: a tie stays without end only if each note that could end it ends another. The end is the next note of the pitch, if the notes of that pitch follow each other in time in the order of measures and voices. Refuted without: stop marks are not looked at, so a tie without end is joined to a later note; a tie into another voice is joined to a later note of its own voice."
  },
  {
   "property": "C92",
   "status": "partial",
   "theorems": [
    "C92_one_measure_partial",
    "C92_refuted"
   ],
   "note": "Proved for files that have no *+ and no !!ignore. In general false: a staff opened later by *+ to the right of the others is first in the list of staves, so all lines above it are not imported."
  },
  {
   "property": "C93",
   "status": "partial",
   "theorems": [
    "C93_ignore_partial",
    "C93_refuted"
   ],
   "note": "Proved for measures with notes before them, in files without *+. False for the first measure, which is imported also if its barline is ignored, since its start is moved to the first line."
  },
  {
   "property": "C94",
   "status": "partial",
   "theorems": [
    "C94_voices_partial",
    "C94_total",
    "C94_refuted"
   ],
   "note": "Proved where the sub-spines of each staff stand side by side. After an exchange of spines across staves this is not so, and two notes that sound at once get into one voice."
  },
  {
   "property": "C95",
   "status": "partial",
   "theorems": [
    "C95_filled",
    "C95_once_partial",
    "C95_start",
    "C95_refuted"
   ],
   "note": "Every gap is filled exactly; that it is filled once is proved where no comment, interpretation or null token of the voice stands later than the end of the note. False otherwise: with a clef change before the note the same rests are put in twice."
  },
  {
   "property": "C96",
   "status": "partial",
   "theorems": [
    "C96_endings_partial",
    "C96_zero_refuted",
    "C96_sections_refuted",
    "C96_names_refuted"
   ],
   "note": "Proved for files whose numbered labels do not merely begin like another section's name and have no number 0; neighbouring endings of two sections with the same number share a bracket. In general false: number 0 raises IndexError, Alt2 is read as an ending of A, and A1 followed by B1 is one bracket."
  },
  {
   "property": "C97",
   "status": "partial",
   "theorems": [
    "C97_changes_partial",
    "C97_first_partial",
    "C97_twice_refuted",
    "C97_first_refuted"
   ],
   "note": "Proved: in a measure that does not begin at time 0 a staff gets exactly the last time signature and the last (readable) key signature written in it on that staff, at their times, with the last meter symbol that follows a time signature and the last key designation; a measure at time 0 gets the last ones above the first notes at offset 0. Missing because false: when two changes of one kind stand in one measure the first is lost; a change in the middle of the first measure is lost. Lines that are in no measure (C92) are not covered. The conversion of the tokens is C48; clefs are not modelled."
  },
  {
   "property": "C98",
   "status": "partial",
   "theorems": [
    "C98_numbers_partial",
    "C98_first",
    "C98_suffix_refuted"
   ],
   "note": "Proved for every number, with no suffix or a suffix of one lower-case letter, every barline style and fermata; and for the first measure. False for other suffixes: of a longer suffix only the first letter comes back and a suffix in upper case is lost (C98_suffix_refuted). Modelled on the token of the first spine, from which the code reads the number. How music21 splits a name into number and suffix is taken from its documentation."
  },
  {
   "property": "C99",
   "status": "partial",
   "theorems": [
    "C99_positions_partial",
    "C99_changes",
    "C99_once",
    "C99_held_refuted",
    "C99_lost_refuted"
   ],
   "note": "Proved for voices whose objects follow one another (each begins at or after the end of the one before): objects and changes are met at their offsets; a layer holds exactly the changes at which an object begins or the layer ends; one full writing, references after it. False otherwise: a clef inside a held note makes the layer too long (C99_held_refuted); a change at which no voice has a beginning is lost (C99_lost_refuted). Durations are taken to be read back as written; the reading of references is not modelled."
  }
 ]
}