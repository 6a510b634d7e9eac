{"id": "C01", "title": "A duration survives being written as **recip text and read back", "statement": "Convert.recipToDuration(Convert.durationToRecip(d)) == d for every non-negative rational quarter-note duration d (with no other cached entries interfering); zero is written as the grace-note marker and reads back as zero.", "quantifier": "every non-negative rational d, any numerator and denominator", "why_tests_cant": "There are infinitely many rationals; the code branches on numerator, on dotted multiples and on a small table of long notes, and a test only samples those branches.", "anchors": ["converter21/humdrum/convert.py: Convert.durationToRecip, Convert.recipToDuration"]}
{"id": "C02", "title": "Parsing a rhythm never depends on what was parsed before", "statement": "The value returned by Convert.recipToDuration(recip, scale) depends only on its arguments, never on earlier calls in the same process.", "quantifier": "every finite history of calls with any recip strings and any scales, followed by any call", "why_tests_cant": "A memo table keyed on a subset of the arguments only misbehaves after particular histories; test suites use fresh or homogeneous histories.", "anchors": ["converter21/humdrum/convert.py: Convert.recipToDuration, _recipToDurationCache"]}
{"id": "C03", "title": "A note duration written to **kern reads back with the same length", "statement": "For every duration a score can hold (plain, dotted, long, or a member of one tuplet with dots), the **kern rhythm text the exporter emits for it is parsed by the importer to the same quarter length.", "quantifier": "every non-negative rational quarter length; every note type, dot count and tuplet multiplier", "why_tests_cant": "The exporter rewrites '1%2' to '0', strips dots and re-dots tuplets; a wrong rewrite shows only for particular ratios.", "anchors": ["converter21/humdrum/m21convert.py: M21Convert.kernRecipFromM21Duration", "converter21/humdrum/convert.py: Convert.recipToDuration"]}
{"id": "C04", "title": "The exported **recip spine states each line's true duration", "statement": "The recip token the exporter writes for a line of duration d parses back to d.", "quantifier": "every positive rational d", "why_tests_cant": "Infinite domain with branches on divisibility by three.", "anchors": ["converter21/humdrum/gridslice.py: GridSlice._createRecipTokenFromDuration"]}
{"id": "C05", "title": "A pitch survives export to **kern and re-import", "statement": "The **kern text produced for a pitch (step, octave, alteration) is read back by the importer as exactly the same step, octave and alteration, whatever display suffix is added.", "quantifier": "all seven steps, every octave (unbounded in both directions), every integer alteration, every display status", "why_tests_cant": "Octave and alteration are unbounded, and encoded by repeated letters on both sides of middle C.", "anchors": ["converter21/humdrum/m21convert.py: kernPitchFromM21Pitch, kernPitchFromM21OctaveAndStep, m21PitchName, m21PitchNameWithOctave", "converter21/humdrum/convert.py: kernToOctaveNumber, kernToDiatonicPC"]}
{"id": "C06", "title": "Base-40 pitch numbers name pitches uniquely", "statement": "Distinct spelled pitches with at most two sharps or flats have distinct base-40 numbers, and converting a pitch to base 40 and back to **kern text returns the same spelling.", "quantifier": "all steps, all octaves the converter accepts, all alterations from -2 to 2; and what happens outside that range", "why_tests_cant": "Collisions between enharmonic neighbours across octaves cannot be excluded by samples.", "anchors": ["converter21/humdrum/convert.py: kernToBase40, kernToBase40PC, base40ToKern, base40ToDiatonic, base40ToAccidental"]}
{"id": "C07", "title": "The MIDI number of a **kern pitch is the equal-tempered sounding key", "statement": "Convert.kernToMidiNoteNumber returns 12*(octave+1) + the semitone of the step + the alteration.", "quantifier": "all steps, octaves and alterations", "why_tests_cant": "Unbounded octave and alteration.", "anchors": ["converter21/humdrum/convert.py: kernToMidiNoteNumber, kernToBase12, kernToBase12PC, kernToOctaveNumber"]}
{"id": "C08", "title": "Diatonic (base-7) staff positions round-trip", "statement": "Convert.base7ToKern and Convert.kernToBase7 are inverse on every staff position the converter accepts, and kernClefToBaseline's results are consistent with them.", "quantifier": "every integer staff position in range", "why_tests_cant": "Off-by-one at octave boundaries hides from samples.", "anchors": ["converter21/humdrum/convert.py: kernToBase7, base7ToBase40, base7ToKern, base40ToKern"]}
{"id": "C09", "title": "Transposition strings round-trip", "statement": "Convert.transToDiatonicChromatic(Convert.diatonicChromaticToTrans(d, c)) == (d, c).", "quantifier": "all integers d and c, positive, zero or negative", "why_tests_cant": "Unbounded integers with sign handling in both directions.", "anchors": ["converter21/humdrum/convert.py: transToDiatonicChromatic, diatonicChromaticToTrans"]}
{"id": "C10", "title": "The parameter store behaves as a last-write-wins map", "statement": "After any sequence of sets and deletes on a HumHash, getValue(ns1,ns2,key) is the value of the most recent set of that (ns1,ns2,key) not followed by a delete of it, and nothing (None) otherwise; operations on one key never change another.", "quantifier": "every finite sequence of set/delete operations with any namespace and key strings, then every query", "why_tests_cant": "History-quantified; aliasing between the two namespace levels appears only for particular key shapes.", "anchors": ["converter21/humdrum/humhash.py: HumHash.setValue, getValue, deleteValue, isDefined, fixupNamespace1Namespace2Key, getKeyTuple"]}
{"id": "C11", "title": "Parameter counts and key lists agree with the stored contents", "statement": "hasParameters, getParameterCount and getKeys report exactly the entries set and not deleted, each once.", "quantifier": "every finite history of sets and deletes", "why_tests_cant": "Depends on the whole history.", "anchors": ["converter21/humdrum/humhash.py: HumHash.getKeys, hasParameters, getParameterCount"]}
{"id": "C12", "title": "Layout text survives export and re-import", "statement": "Any text written into a !LO: layout parameter (colons escaped as &colon;) is recovered with its colons when the layout line is parsed, and '=' signs inside a value are kept.", "quantifier": "every text string", "why_tests_cant": "Depends on where separator characters fall in arbitrary text.", "anchors": ["converter21/humdrum/m21convert.py: M21Convert._cleanSpacesAndColons", "converter21/humdrum/humparamset.py: HumParamSet.readString", "converter21/humdrum/humdrumline.py: HumdrumLine.setParameters"]}
{"id": "C13", "title": "A Humdrum line equals the tab-join of its tokens", "statement": "Parsing a line into tokens and regenerating the line text returns the original text, byte for byte, including repeated tabs; and the tokens contain no tabs and are non-empty.", "quantifier": "every line of text", "why_tests_cant": "Arbitrary text with arbitrary runs of tabs.", "anchors": ["converter21/humdrum/humdrumline.py: HumdrumLine.createTokensFromLine, createLineFromTokens"]}
{"id": "C14", "title": "A Humdrum file's text equals the newline-join of its lines", "statement": "Reading text into a HumdrumFile and writing the lines back gives the same lines, in the same order, none lost or invented (up to one final newline), and stops exactly at an end-of-stream marker.", "quantifier": "every text", "why_tests_cant": "Arbitrary text; boundary newlines.", "anchors": ["converter21/humdrum/humdrumfilebase.py: HumdrumFileBase.readString"]}
{"id": "C15", "title": "Every accepted spined line has exactly one token per open spine", "statement": "If a file is accepted, then walking its lines with the Humdrum rules (*^ adds one spine, a run of k adjacent *v removes k-1, *x swaps, *+ adds one, *- removes one) gives, before each spined line, a number of open spines equal to the number of tokens on it.", "quantifier": "every file, any number of lines, spines, and any sequence of manipulators", "why_tests_cant": "Unbounded histories of manipulators; the reader's spine count is an accumulated state.", "anchors": ["converter21/humdrum/humdrumfilebase.py: analyzeSpines, adjustSpines"]}
{"id": "C16", "title": "Splitting a spine and merging it again restores the spine", "statement": "After '*^' and an immediately following '*v *v' on the two halves, the spine has the same identity (track and sub-spine label) and neighbours as before the split, at any nesting depth.", "quantifier": "every spine configuration and label, any depth of nested splits", "why_tests_cant": "Labels grow without bound as nested strings and merging strips them textually.", "anchors": ["converter21/humdrum/humdrumfilebase.py: adjustSpines, getMergedSpineInfo"]}
{"id": "C17", "title": "Token links are symmetric", "statement": "In every accepted file, token b is listed among a's next tokens exactly when a is listed among b's previous tokens, and every link joins consecutive spined lines.", "quantifier": "every accepted file", "why_tests_cant": "Needs every combination of manipulators on adjacent lines.", "anchors": ["converter21/humdrum/humdrumfilebase.py: analyzeLinks, stitchLinesTogether", "converter21/humdrum/humdrumtoken.py: makeForwardLink"]}
{"id": "C18", "title": "Sub-track numbers enumerate a track's tokens left to right", "statement": "On each spined line, the tokens of a track that occurs n>1 times carry sub-track numbers 1..n from left to right and sub-track count n; a track that occurs once reports sub-track 0.", "quantifier": "every line with any assignment of tokens to tracks", "why_tests_cant": "Arbitrary interleavings of tracks on a line.", "anchors": ["converter21/humdrum/humdrumline.py: HumdrumLine.analyzeTracks", "converter21/humdrum/humaddress.py: HumAddress.subTrack"]}
{"id": "C19", "title": "The two passes over spine manipulators agree", "statement": "The number of spines after a manipulator line computed by the spine analysis equals the number of tokens the link analysis consumes on the next spined line; whenever the file passes the first it never fails the second.", "quantifier": "every manipulator line", "why_tests_cant": "Two independent implementations of the same rule; must agree on every sequence of manipulators.", "anchors": ["converter21/humdrum/humdrumfilebase.py: adjustSpines, stitchLinesTogether"]}
{"id": "C20", "title": "Start times add up along every spine path", "statement": "If strict rhythm analysis of a file succeeds, then along every spine path each token with a duration starts exactly at the start of the token with a duration before it plus that token's duration; the analysis always comes to an end.", "quantifier": "every file, any number of spines, splits, merges and rhythms", "why_tests_cant": "Global consistency over all paths through the token graph.", "anchors": ["converter21/humdrum/humdrumfilestructure.py: assignDurationsToTrack, prepareDurations, setLineDurationFromStart"]}
{"id": "C21", "title": "Line durations add up to the score's length", "statement": "After rhythm analysis, each line's start time is the sum of the durations of the lines before it (plus the first start), no duration is negative when starts are in order, and the score duration is the last line's start plus its duration.", "quantifier": "every list of line start times", "why_tests_cant": "Telescoping over arbitrarily long files.", "anchors": ["converter21/humdrum/humdrumfilestructure.py: assignLineDurations, assignRhythmFromRecip, scoreDuration"]}
{"id": "C22", "title": "Distances to the surrounding barlines add up to the measure length", "statement": "For every line inside a measure, duration-from-barline plus duration-to-barline equals the total duration of the measure's lines, and a barline reports the length of the measure it starts.", "quantifier": "every sequence of lines with any durations and any placement of barlines", "why_tests_cant": "Two opposite sweeps must agree for every file.", "anchors": ["converter21/humdrum/humdrumfilestructure.py: analyzeMeter"]}
{"id": "C23", "title": "Lines holding only null tokens are placed evenly between their neighbours", "statement": "A run of n null data lines between a line at time a and the next non-null line at time b gets start times a + k(b-a)/(n+1), strictly increasing when a<b, and no other line's start time changes.", "quantifier": "every file and every run length", "why_tests_cant": "Arbitrary run lengths and rational times.", "anchors": ["converter21/humdrum/humdrumfilestructure.py: analyzeNullLineRhythms"]}
{"id": "C24", "title": "Filling in missing start times never moves a known one", "statement": "After filling, every line has a start time whenever any line had one; lines that had one keep it; and if the known times were in order so are all times.", "quantifier": "every list of known/unknown start times", "why_tests_cant": "Arbitrary patterns of unknowns at both ends and in the middle.", "anchors": ["converter21/humdrum/humdrumfilestructure.py: fillInMissingStartTimes"]}
{"id": "C25", "title": "Ticks-per-quarter is the least common tick", "statement": "tpq() makes every line duration a whole number of ticks, and no smaller positive integer does.", "quantifier": "every list of rational line durations", "why_tests_cant": "Number-theoretic; any set of denominators.", "anchors": ["converter21/humdrum/humdrumfilestructure.py: tpq", "converter21/humdrum/convert.py: Convert.getLcm"]}
{"id": "C26", "title": "A null token stands for the most recent data token in its own strand", "statement": "After null resolution, every null data token refers to the last non-null data token before it in the same strand, and never to a token of another spine.", "quantifier": "every file with any number of strands", "why_tests_cant": "State carried between strands only matters for particular strand orders.", "anchors": ["converter21/humdrum/humdrumfilestructure.py: resolveNullTokens"]}
{"id": "C27", "title": "Strands partition the tokens of the file", "statement": "Every token of every spine belongs to exactly one strand, and each strand is a path of consecutive tokens.", "quantifier": "every file", "why_tests_cant": "Needs all split/merge shapes.", "anchors": ["converter21/humdrum/humdrumfilestructure.py: analyzeSpineStrands, assignStrandsToTokens"]}
{"id": "C28", "title": "Slurs match like parentheses", "statement": "Within a single layer, for each elision level (up to three elision marks before a slur mark), analysing a track's slur marks pairs each closing mark with the nearest earlier unmatched opening mark; unmatched marks are reported hanging; nothing is paired twice; and the slurs recorded as ending at a token are exactly its pairs, in order. With several layers, openings of the closing mark's own layer are taken first, the last one first.", "quantifier": "every sequence of tokens with any number of opens and closes, in any number of layers", "why_tests_cant": "Unbounded nesting and interleaving of layers.", "anchors": ["converter21/humdrum/humdrumfilecontent.py: analyzeSpineSlursOrPhrases", "converter21/humdrum/humdrumfilecontent.py: _linkSlurOrPhraseEndpoints", "converter21/humdrum/convert.py: _getElisionLevelWorker"]}
{"id": "C29", "title": "Tie ends are linked to the most recent start of the same pitch", "statement": "Each linked tie end is paired with the latest earlier start of the same pitch, each start is used at most once, and every pair is recorded on both tokens.", "quantifier": "every sequence of tie starts and ends at any pitches", "why_tests_cant": "Unbounded interleavings of pitches.", "anchors": ["converter21/humdrum/humdrumfilecontent.py: generateLinkedTieStartsAndEnds"]}
{"id": "C30", "title": "A reader of the printed accidentals hears the right notes", "statement": "If an accidental is printed exactly on the notes the analysis marks, then a performer applying the ordinary rule (key signature at each barline; a printed accidental holds for that staff position until the next barline) plays every non-tied note with its encoded alteration.", "quantifier": "every sequence of notes, grace notes, chords, key signatures and barlines", "why_tests_cant": "State machine over arbitrary histories; only rare histories expose a missing natural.", "anchors": ["converter21/humdrum/humdrumfilecontent.py: analyzeKernAccidentals, fillKeySignature, resetDiatonicStates"]}
{"id": "C31", "title": "User signifier tables stay aligned", "statement": "After reading any RDF signifier records, in any order and number, the parallel lists of marks, colours, directions and accidental types have equal lengths and corresponding entries come from the same record.", "quantifier": "every sequence of records", "why_tests_cant": "History dependent.", "anchors": ["converter21/humdrum/humsignifiers.py: HumSignifiers.addSignifier, generateKnownInfo"]}
{"id": "C32", "title": "Octave-line state follows the start/stop interpretations", "statement": "The octave shift applied to a note is the one of the most recent unterminated octave-line interpretation in its track, and zero if none is open.", "quantifier": "every sequence of octave-line tokens", "why_tests_cant": "Arbitrary interleavings of starts and stops.", "anchors": ["converter21/humdrum/humdrumfilecontent.py: analyzeOttavas"]}
{"id": "C33", "title": "Rhythmic scaling is applied exactly while a scale is active", "statement": "A token's rhythmic scale is the last *rscale given in its track, and tokens carry a scale if and only if that scale is not one.", "quantifier": "every sequence of rscale interpretations over any number of tracks", "why_tests_cant": "A running counter of active tracks must never drift.", "anchors": ["converter21/humdrum/humdrumfilecontent.py: analyzeRScale"]}
{"id": "C34", "title": "Exported spine splits and merges are read back as the intended voices", "statement": "Reading the manipulator lines that the exporter puts between two lines with v1 and v2 voices per staff, by the importer's own rules, turns v1 open spines per staff into exactly v2 per staff.", "quantifier": "every number of parts and staves and every pair of voice counts", "why_tests_cant": "Unbounded combinations; expansion and contraction lines interact between neighbouring staves.", "anchors": ["converter21/humdrum/humgrid.py: manipulatorCheckTwoSlices, cleanupManipulators, cleanManipulator, checkManipulatorExpand, checkManipulatorContract, adjustExpansionsInStaff, transferMerges, transferOtherParts, adjustVoices, matchVoices"]}
{"id": "C35", "title": "All exported lines of a score have the same side columns", "statement": "For a given slice structure, the number of columns emitted for lyrics, dynamics, figured bass, harmony and xml-ids is the same on every spined line.", "quantifier": "every slice and every grid configuration", "why_tests_cant": "Any combination of parts, staves, verses and side data.", "anchors": ["converter21/humdrum/gridslice.py: GridSlice.transferTokens, transferSidesFromPart, transferSidesFromStaff", "converter21/humdrum/humgrid.py: HumGrid"]}
{"id": "C36", "title": "Adding tokens to a measure keeps its lines in time order", "statement": "Starting from an empty measure, after any sequence of additions the measure's lines are in non-decreasing time order.", "quantifier": "every sequence of additions at any timestamps", "why_tests_cant": "History dependent insertion points.", "anchors": ["converter21/humdrum/gridmeasure.py: GridMeasure.addDataToken, addTokenOfSliceType, addGraceToken, addGlobalComment"]}
{"id": "C37", "title": "Moving the first barline loses and duplicates nothing", "statement": "Emitting the first measure outputs every valid line exactly once, with all lines other than the first barline and rehearsal marks in their original order.", "quantifier": "every first measure", "why_tests_cant": "Any order of slice types.", "anchors": ["converter21/humdrum/gridmeasure.py: GridMeasure.transferTokens"]}
{"id": "C38", "title": "Splitting a duration into writable notes preserves its length", "statement": "getPowerOfTwoQuarterLengthsWithDotsAddingTo(q) returns a list whose sum is q, all writable as a power of two with up to three dots unless q itself is returned unchanged; it always terminates.", "quantifier": "every non-negative rational q", "why_tests_cant": "Greedy loop over an infinite domain.", "anchors": ["converter21/shared/m21utilities.py: getPowerOfTwoQuarterLengthsWithDotsAddingTo, isPowerOfTwo, isPowerOfTwoWithDots"]}
{"id": "C39", "title": "Splitting a duration at a crossing point preserves both parts", "statement": "getPowerOfTwoDurationsWithDotsAddingToAndCrossing(total, crossing) returns two lists summing to crossing and to total - crossing.", "quantifier": "every total and crossing the function accepts", "why_tests_cant": "Recursive with index arithmetic exercised only for multi-piece totals.", "anchors": ["converter21/shared/m21utilities.py: getPowerOfTwoDurationsWithDotsAddingToAndCrossing"]}
{"id": "C40", "title": "Every staff group appears in the staff-group tree", "statement": "Each staff group given to getStaffGroupTrees occurs exactly once in the returned forest and every child's staves are a subset of its parent's.", "quantifier": "every list of staff groups", "why_tests_cant": "Depends on duplicates and on order.", "anchors": ["converter21/shared/m21utilities.py: getStaffGroupTrees"]}
{"id": "C41", "title": "Distinct objects get distinct xml ids", "statement": "For a given prefix, makeXmlIdFrom maps distinct integer ids to distinct xml ids.", "quantifier": "all integers, any prefix", "why_tests_cant": "Injectivity over an infinite domain.", "anchors": ["converter21/shared/m21utilities.py: makeXmlIdFrom"]}
{"id": "C42", "title": "Contributor role names convert between camelCase and words without loss", "statement": "spaceDelimitedToCamelCase(camelCaseToSpaceDelimited(s)) == s for every role name in camelCase, and conversely for lower-case words.", "quantifier": "every role string of the given shape", "why_tests_cant": "Arbitrary strings.", "anchors": ["converter21/shared/m21utilities.py: spaceDelimitedToCamelCase, camelCaseToSpaceDelimited"]}
{"id": "C43", "title": "Dates survive being written to a reference record and read back", "statement": "m21DatePrimitiveFromString(stringFromM21DateObject(d)) equals d for every date object.", "quantifier": "every date: any year (negative too), optional fields, error marks, ranges and selections", "why_tests_cant": "Large structured domain; zero fields and 60-second values are special-cased.", "anchors": ["converter21/shared/m21utilities.py: stringFromM21DateObject, m21DatePrimitiveFromString, _dateFromString, _stringFromDate"]}
{"id": "C44", "title": "ISO dates round-trip", "statement": "m21DateFromIsoDate(isoDateFromM21Date(d)) equals d.", "quantifier": "every date with or without a time of day", "why_tests_cant": "Field-count dependent formatting.", "anchors": ["converter21/shared/m21utilities.py: isoDateFromM21Date, m21DateFromIsoDate"]}
{"id": "C45", "title": "Sorting a measure's events keeps every event exactly once", "statement": "After sorting, the time bins are strictly increasing, every event is in the bin of its own start time in its original relative order, in exactly one of the two lists of the bin.", "quantifier": "every list of events", "why_tests_cant": "Arbitrary multisets and ties.", "anchors": ["converter21/humdrum/measuredata.py: MeasureData._sortEvents"]}
{"id": "C46", "title": "Hidden rests fill gaps exactly", "statement": "The hidden rests inserted before an element that starts after the current time begin at the current time, follow one another without overlap, and end at the element's start.", "quantifier": "every gap length", "why_tests_cant": "Gaps needing more than one rest are rare in tests.", "anchors": ["converter21/humdrum/measuredata.py: MeasureData._parseEventsIn"]}
{"id": "C47", "title": "Expanding a tremolo keeps the total duration and leaves other notes alone", "statement": "The notes that replace a tremolo note have total duration equal to the original note, and no token after the tremolo note's own span is changed.", "quantifier": "every tremolo value and note duration", "why_tests_cant": "Count-dependent loop bounds.", "anchors": ["converter21/humdrum/humdrumtools.py: ToolTremolo.expandTremolo"]}
{"id": "C48", "title": "Key signatures survive export and re-import", "statement": "The key-signature token written for a signature with k sharps (negative: flats) is read back as k sharps.", "quantifier": "every k the exporter supports (-14..14)", "why_tests_cant": "Two separate tables must agree on every entry.", "anchors": ["converter21/humdrum/m21convert.py: keySigTokenFromM21KeySignature, m21KeySignature"]}
{"id": "C49", "title": "Any two adjacent barlines can be combined", "statement": "combineTwoMeasureStyles returns a style for every pair of barlines that can come from a score.", "quantifier": "every pair of barline types and repeat directions", "why_tests_cant": "Partial lookup table with cross terms.", "anchors": ["converter21/humdrum/m21convert.py: combineTwoMeasureStyles, getMeasureStyle, measureStyleFromM21Barline", "converter21/humdrum/gridcommon.py: MeasureStyle"]}
{"id": "C50", "title": "A token's cached classification always matches its text", "statement": "After any sequence of text changes and queries, a token's answers equal those of a fresh token with the same text.", "quantifier": "every finite interleaving of text changes and queries", "why_tests_cant": "Stale caches show only after particular interleavings.", "anchors": ["converter21/humdrum/humdrumtoken.py: HumdrumToken.text setter, isNote, isRest, subtokens, replaceSubtoken"]}
{"id": "C51", "title": "Extracting a track keeps all and only its tokens", "statement": "getTrackSequence for a track returns, line by line in order, exactly that track's tokens that pass the chosen filters.", "quantifier": "every file and every combination of filters", "why_tests_cant": "Any file and any combination of options.", "anchors": ["converter21/humdrum/humdrumfilebase.py: getTrackSequence"]}
{"id": "C52", "title": "Layout parameters attached to a token are ordered and unique", "statement": "After any sequence of attachments a token's parameter sets are ordered by the line they come from, none twice.", "quantifier": "every finite sequence of attachments", "why_tests_cant": "History dependent insertion.", "anchors": ["converter21/humdrum/humdrumtoken.py: addLinkedParameterSet"]}
{"id": "C53", "title": "A positioned rest lands on a staff line", "statement": "The vertical shift computed for a rest with a position always moves it by a whole number of line spacings.", "quantifier": "every rest pitch and clef baseline", "why_tests_cant": "Signed modular arithmetic over all integers.", "anchors": ["converter21/humdrum/humdrumfilecontent.py: _checkRestForVerticalPositioning"]}
{"id": "C54", "title": "Notes coloured in one spine leave other spines' colours alone", "statement": "A colour interpretation in one track changes only the colour of that track.", "quantifier": "every sequence of colour interpretations over any tracks", "why_tests_cant": "Shared mutable rows appear only with several tracks.", "anchors": ["converter21/humdrum/humdrumfilecontent.py: initializeSpineColor, setSpineColorFromColorInterpToken"]}
{"id": "C55", "title": "Pickup detection follows the meter", "statement": "hasPickup reports a pickup if and only if music precedes the first barline and is shorter than the first time signature.", "quantifier": "every file prefix", "why_tests_cant": "Arbitrary order of data, barline and time signature.", "anchors": ["converter21/humdrum/humdrumfilecontent.py: hasPickup"]}
{"id": "C56", "title": "Beams written for a group of notes balance", "statement": "The number of beam starts written over a beamed group equals the number of beam ends; the letters of a note say its starts, stops and hooks; and reading the layer back joins two notes in one beam exactly when a beam was open from the one to the other.", "quantifier": "every sequence of beamed notes, grace notes and other items", "why_tests_cant": "Beam groups can be nested to any depth and interleaved with grace notes; tests check a few patterns.", "anchors": ["converter21/humdrum/m21convert.py: _getHumdrumBeamStringFromM21Beams", "converter21/humdrum/humdrumfile.py: _analyzeLayerBeams"]}
{"id": "C57", "title": "Track ends are filed under their track", "statement": "After reading a file, the spine ends listed for a track are exactly the '*-' tokens of that track, and over all tracks every '*-' of the file is listed once, in reading order.", "quantifier": "every accepted file, any number of spines and manipulators", "why_tests_cant": "Needs every history of spine manipulators.", "anchors": ["converter21/humdrum/humdrumfilebase.py: adjustSpines, spineStopList, trackEnd, trackEndCount"]}
{"id": "C58", "title": "A merged spine stays on a track it came from", "statement": "After spines are merged with '*v', the merged spine belongs to the track of one of the spines merged, and merging never makes the reader crash.", "quantifier": "every list of spine labels, any number of spines merged", "why_tests_cant": "Labels are unbounded nested strings that are merged textually.", "anchors": ["converter21/humdrum/humdrumfilebase.py: getMergedSpineInfo", "converter21/humdrum/humdrumline.py: HumdrumLine.analyzeTracks"]}
{"id": "C59", "title": "The undotted length of a rhythm is its length without what the dots add", "statement": "For every rhythm text, the length read ignoring augmentation dots times (2 - 1/2^n), n the number of dots of the first subtoken, is the length read with them; texts without a rhythm give 0 both ways and texts that raise do so both ways.", "quantifier": "every text, every scale, after any calls at that scale", "why_tests_cant": "Unbounded texts and numbers of dots, and a shared cache.", "anchors": ["converter21/humdrum/convert.py: recipToDuration, recipToDurationNoDots"]}
{"id": "C61", "title": "Staff-position names read back as the same position", "statement": "For every staff position, splitting base7ToDisplayName(b) into step, accidental and octave gives a natural pitch whose pitchToBase7 is b.", "quantifier": "every integer staff position", "why_tests_cant": "All integers, and the sign of the octave meets the text of a flat.", "anchors": ["converter21/shared/m21utilities.py: base7ToDisplayName, splitM21PitchNameIntoNameAccidOctave, pitchToBase7"]}
{"id": "C60", "title": "Extended dates survive being written and read back", "statement": "m21DatePrimitiveFromIsoDate of the 'edtf' text made by isoDateFromM21DatePrimitive(d, edtf=True) equals d for every date object.", "quantifier": "every date object (single, relative, range, selection)", "why_tests_cant": "Marks, ranges and lists combine freely in the text.", "anchors": ["converter21/shared/m21utilities.py: isoDateFromM21DatePrimitive, m21DatePrimitiveFromIsoDate"]}
{"id": "C63", "title": "Barlines survive export and re-import", "statement": "The right barline of a measure and the left barline of the next, written as one barline token with any measure number and fermata, are read back as the same barlines; no repeat sign is lost or invented.", "quantifier": "every pair of barlines, every measure number", "why_tests_cant": "The measure number is arbitrary text in the middle of the token and the reader searches for substrings anywhere in it.", "anchors": ["converter21/humdrum/humgrid.py: createBarToken", "converter21/humdrum/m21convert.py: m21BarlineFromHumdrumString, combineTwoMeasureStyles", "converter21/humdrum/humdrumfile.py: _setSystemMeasureStyle"]}
{"id": "C64", "title": "Repeated-text regions mark the right syllables", "statement": "A syllable of a text spine is marked as repeated text exactly when an opening mark (*ij, *edit, *italic) precedes it with no closing mark in between; it is marked first exactly when no syllable stands between such an opening mark and it; and last exactly when a closing mark follows before any other syllable.", "quantifier": "every text spine with any sequence of marks, syllables, null tokens and barlines", "why_tests_cant": "Regions may nest, repeat, be left open or contain nothing; the mark for the last syllable is set later than the syllable is seen.", "anchors": ["converter21/humdrum/humdrumfilecontent.py: analyzeTextRepetition"]}
{"id": "C65", "title": "A positioned rest keeps its position through export and import", "statement": "The pitch written for a rest that is shifted by an even number of steps under a clef is read back as the same shift under that clef, whatever other letters-free text surrounds it.", "quantifier": "every even shift and every clef baseline within the writable pitches", "why_tests_cant": "The written letter depends on octave, clef and shift together; no finite table covers them.", "anchors": ["converter21/humdrum/m21convert.py: rest postfix", "converter21/humdrum/humdrumfilecontent.py: _checkRestForVerticalPositioning"]}
{"id": "C66", "title": "A scaled rhythm is displayed with the scaled duration", "statement": "The rhythm text displayed for a token under an active rhythmic scale reads back as the scale times the token's own duration.", "quantifier": "every scale and every duration with any number of dots", "why_tests_cant": "Whether appended dots combine with the dots of the scaled rhythm depends on arbitrary rationals.", "anchors": ["converter21/humdrum/humdrumfilecontent.py: analyzeRScale", "converter21/humdrum/humdrumtoken.py: durationNoDots"]}
{"id": "C67", "title": "A slur is attributed to the opening mark it starts from", "statement": "The start number recorded for a slur (used to find the style marks written after that opening mark) is the number, among the opening marks of the start token, of the opening mark that its closing mark pairs with.", "quantifier": "every track, with any number of opening marks per token", "why_tests_cant": "Which opening is closed first depends on unbounded nesting.", "anchors": ["converter21/humdrum/humdrumfilecontent.py: _linkSlurOrPhraseEndpoints", "converter21/humdrum/humdrumfile.py: _processSlurs"]}
{"id": "C68", "title": "Every note keeps the tie its marks say", "statement": "After import, a note whose token starts a tie has a start tie, one that ends a tie a stop, one that does both (by _ or by both brackets) a continue, and any other none - whichever ties are paired, left open, left without a start, or linked.", "quantifier": "every sequence of notes of a staff, in any layers, with any times, pitches and tie marks", "why_tests_cant": "Unbounded interleaving of ties; pairing depends on times and layers.", "anchors": ["converter21/humdrum/humdrumfile.py: _processTieStart", "converter21/humdrum/humdrumfile.py: _processTieEnd", "converter21/humdrum/humdrumfile.py: _processHangingTieStarts"]}
{"id": "C69", "title": "A layout parameter is given to the notes it is meant for", "statement": "Asking a note of a chord for a layout parameter gives the value from the first attached parameter set of that category that applies to the note (it names that note, or none) and sets the parameter; asking the whole token gives the first value set.", "quantifier": "every list of attached parameter sets, category, parameter and note index", "why_tests_cant": "Which sets interfere depends on their order and on parameters other than the one asked for.", "anchors": ["converter21/humdrum/humdrumtoken.py: layoutParameter"]}
{"id": "C70", "title": "Reference records are read back as written", "statement": "A line '!!!KEY: VALUE' or '!!!!KEY: VALUE' is recognised as a reference record with exactly that key and value, whatever blanks surround them; a line with a blank inside what precedes the colon is not a reference record.", "quantifier": "every key, value and surrounding blanks", "why_tests_cant": "Unbounded texts; colons may occur in values.", "anchors": ["converter21/humdrum/humdrumline.py: isGlobalReference, isUniversalReference, referenceKey, referenceValue"]}
{"id": "C72", "title": "Mensural notes last what their letter and perfection mark say", "statement": "A **mens note lasts the value of its rhythm letter, half as long again if its last perfection mark is 'p'.", "quantifier": "every **mens text", "why_tests_cant": "Unbounded texts with any other signs between.", "anchors": ["converter21/humdrum/convert.py: mensToDuration, mensToDurationNoDots"]}
{"id": "C73", "title": "Two repeats meeting at a barline are drawn as their lines side by side", "statement": "Where an end repeat meets a start repeat, the exported barline shows the lines of the first followed by the lines of the second (touching equal lines drawn once; equal shapes drawn once).", "quantifier": "every pair of regular, heavy, final or heavy-light repeats", "why_tests_cant": "The table of combinations is filled from several overlapping rules; tests try a few pairs.", "anchors": ["converter21/humdrum/m21convert.py: _combineVisualRepeatBothStyles, _setupRepeatBothStyleComboLookup"]}
{"id": "C74", "title": "All staves' events of a measure are handed over in time order", "statement": "Walking through one measure, every staff's events are handed over exactly once and in their order; the events of all staves at one time are handed over together; and the times handed over are strictly increasing.", "quantifier": "every number of staves with events in increasing order, including staves without events", "why_tests_cant": "The walk keeps one shared next time with a sentinel; whether it is right depends on the combination of all staves.", "anchors": ["converter21/humdrum/humdrumwriter.py: HumdrumWriter._insertMeasure"]}
{"id": "C75", "title": "A token added to a measure stands on a line of its own time and kind", "statement": "After adding a token to a measure there is a line of the token's time and kind with that token at its place; at most this one line is new or changed, and changed only at this place. There is at most one line of notes for each time.", "quantifier": "every measure, every token and time", "why_tests_cant": "Reuse of existing lines depends on everything added before.", "anchors": ["converter21/humdrum/gridmeasure.py: addDataToken, addTokenOfSliceType, addGraceToken, addLabelToken, addGlobalComment"]}
{"id": "C76", "title": "A layout comment for a line stands directly before that line", "statement": "After adding a layout comment (or dynamic, harmony or verse token) for a line of a measure, the line directly before it is a line of that kind carrying the token, and no other line is changed.", "quantifier": "every measure and line", "why_tests_cant": "Only fails for particular shapes of the whole measure.", "anchors": ["converter21/humdrum/gridmeasure.py: addLayoutParameter, addDynamicsLayoutParameters, addHarmonyLayoutParameters, addTupletDisplayTokenBefore"]}
{"id": "C77", "title": "Octave and pedal marks added together keep their order", "statement": "Octave and pedal marks added together for one line stand before it on lines of their own, in the order in which they were given.", "quantifier": "every list of marks, every measure", "why_tests_cant": "Tests use single marks.", "anchors": ["converter21/humdrum/gridmeasure.py: addOttavaOrPedalTokensBefore"]}
{"id": "C71", "title": "A user signifier switch follows the last record that defines it", "statement": "For each note signifier switch (no stem, cue size, hairpin accent, vertical stroke, terminal long, above, below, linked), its value after reading any records of a file is the signifier of the last **kern record whose definition mentions the switch's phrase, and empty if there is none.", "quantifier": "every file", "why_tests_cant": "Depends on the order and the wording of all records.", "anchors": ["converter21/humdrum/humsignifiers.py: HumSignifiers.generateKnownInfo"]}
{"id": "C78", "title": "A signifier record is read as written", "statement": "A record made of an interpretation, a signifier and a definition, with any blanks around colon and equals sign and at the end of the line, is read back as exactly these three.", "quantifier": "every interpretation, signifier, definition and spacing", "why_tests_cant": "Unbounded strings.", "anchors": ["converter21/humdrum/humsignifiers.py: HumSignifier.parseSignifier"]}
{"id": "C79", "title": "A marked note gets the colour of the first record whose mark it carries", "statement": "A note is coloured with the colour of the first note-marking record of the file whose signifier occurs in its token (red where the record names none), and otherwise keeps the colour of its spine; no combination of records makes colouring fail.", "quantifier": "every file, token and spine colour", "why_tests_cant": "Depends on all records of the file and on substring matches.", "anchors": ["converter21/humdrum/humdrumfile.py: HumdrumFileContent._colorNote", "converter21/humdrum/humsignifiers.py: HumSignifiers.generateKnownInfo"]}
{"id": "C80", "title": "A marked word loses exactly its mark", "statement": "A lyric whose text contains the signifier of a text-marking record is coloured by the first such record and shown with that signifier removed and nothing else changed; any other lyric is shown unchanged.", "quantifier": "every file and lyric", "why_tests_cant": "Unbounded strings; the mark is used as a pattern.", "anchors": ["converter21/humdrum/humdrumfile.py: HumdrumFile._colorVerse"]}
{"id": "C81", "title": "Every exported line is of one kind", "statement": "On a line written for a barline every column has a barline token, on a line of interpretations every column an interpretation, on a layout line every column a comment, and on a line of notes no column has one of these: the text put into empty places and into the column of note lengths suits the kind of the line.", "quantifier": "every grid, every slice whose own tokens are of its kind, with or without a column of note lengths", "why_tests_cant": "Any combination of parts, staves, voices, free places and side columns; a wrong filler makes the whole file unreadable.", "anchors": ["converter21/humdrum/gridslice.py: GridSlice.transferTokens, transferSidesFromPart, transferSidesFromStaff"]}
{"id": "C82", "title": "A layout comment belongs to the next thing below it in its own voice", "statement": "After a file is read, the layout comments linked to a token are exactly those that stand above it in its own strand with no other token in between that could have them, in the order of their lines and none twice; comments marked to be ignored are left out.", "quantifier": "every accepted file that merges columns of one spine only and opens no spine on its last line; every token of a strand that ends", "why_tests_cant": "Comments and notes may stand in any voice of any split; a link to the wrong note changes how that note looks.", "anchors": ["converter21/humdrum/humdrumfilestructure.py: processLocalParametersForStrand, analyzeLocalParameters", "converter21/humdrum/humdrumtoken.py: addLinkedParameterSet"]}
{"id": "C83", "title": "Articulations survive export and re-import", "statement": "Writing a note with articulations to Humdrum and reading the token back gives the same articulations with the same placements (above, below, or none), in stacking order, as long as no kind of articulation stands twice on the note.", "quantifier": "all lists of articulations with placements, all token texts around them", "why_tests_cant": "The marks share characters and are read greedily ('^' is an accent, '^^' a strong accent, \"'\" staccato and \"''\" nothing else), placements follow their mark; a test tries a few pairs, the claim is about every list, order and surrounding text.", "anchors": ["converter21/humdrum/m21convert.py: _getHumdrumStringFromM21Articulations", "converter21/humdrum/m21convert.py: m21Articulations"]}
{"id": "C84", "title": "MEI time stamps are read back as the same offset", "statement": "When a position in a measure is written to MEI as a time stamp and the file is read back with the same time signature, the offset in the measure is exactly the same fraction, although the file has a rounded decimal and the arithmetic is floating-point.", "quantifier": "all offsets, all time signatures, any floating-point rounding of relative error at most 2^-50", "why_tests_cant": "Offsets are fractions of any denominator, written with six digits and recovered by a continued-fraction search; tests try a few triplets, the claim is about every fraction and depends on error bounds through seven rounded operations.", "anchors": ["converter21/mei/m21objectconvert.py: makeTstamp", "converter21/mei/m21objectconvert.py: floatToStringWithDecimalPlacesMinMax", "converter21/mei/meireader.py: _tstampToOffset"]}
{"id": "C85", "title": "A decimal time stamp is read as the closest simple fraction", "statement": "Reading a time stamp always ends, and gives the fraction of denominator at most 768 that is closest to the number in the file; so a rounded decimal of a simple fraction is read as that fraction.", "quantifier": "all decimal numerals", "why_tests_cant": "The search walks a continued fraction; that it ends, and that no other fraction is closer, is a statement about all numbers.", "anchors": ["converter21/mei/meireader.py: tstampStrToOffsetQL", "converter21/mei/meireader.py: _preFracLimitDenominator"]}
{"id": "C86", "title": "The end of an MEI spanner is read back in the same measure at the same offset", "statement": "When the end of a hairpin, trill extension or the like is written as a number of measures and a beat and read back, the spanner ends at the same position of the score.", "quantifier": "all positions of the end, all lists of measures and time signatures", "why_tests_cant": "Depends on measure lengths, time signatures and the rounding of the beat together; a test sees single cases.", "anchors": ["converter21/mei/m21objectconvert.py: makeTstamp2FromScoreOffset", "converter21/mei/meireader.py: _tstamp2ToMeasSkipAndOffset"]}
{"id": "C87", "title": "MEI export and re-import keeps barlines and repeats", "statement": "After a score is exported to MEI and read back, the same barline or repeat sign is drawn at the start, between any two measures and at the end, in every staff, and each repeat starts and ends at the same measures.", "quantifier": "all scores, any number of measures and staves, any sections and endings", "why_tests_cant": "The sign between two measures is a combination of two barlines, and repeats are carried over to the next measure, also across endings; tests try few combinations.", "anchors": ["converter21/mei/m21objectconvert.py: meiMeasureBarlineAttrCombine", "converter21/mei/meimeasure.py: _fillInMeasureAttributes", "converter21/mei/meireader.py: _makeBarlines, sectionFromElement"]}
{"id": "C88", "title": "Beam, tuplet and tremolo elements of an MEI layer hold exactly their notes", "statement": "In every exported MEI layer each beam, tuplet or two-note tremolo that lies in the measure is one element that holds exactly the objects from its first to its last note, elements are properly nested, and only a tuplet that crosses a beam is left without an element.", "quantifier": "all voices, all sets of beams, tuplets and tremolos in them", "why_tests_cant": "Right nesting depends on the order in which elements with the same first or last note are opened and closed; tests cover few overlaps.", "anchors": ["converter21/mei/meilayer.py: makeRootElement, getOrderedBeamTupletFTremStarts, getOrderedBeamTupletFTremEnds, nestsReasonably"]}
{"id": "C89", "title": "Beamed groups found for MEI export are those of the score", "statement": "On export to MEI every beamed note or chord is put into exactly one beamed group, no other object is; each group holds notes of one voice in their order; groups of a voice may nest but never overlap; and if beams are marked properly (a group starts on a note all of whose beams start and ends on one all of whose beams end), exactly those groups are found, also across measures, whatever stands in other voices.", "quantifier": "all scores, all beam marks, any interleaving of voices", "why_tests_cant": "Groups depend on marks of arbitrarily many notes of interleaved voices; tests see a few well formed groups.", "anchors": ["converter21/mei/meiscore.py: annotateBeams, annotateScore", "converter21/shared/m21utilities.py: getNonIgnoredBeams"]}
{"id": "C90", "title": "Tuplets found for MEI export are those of the score", "statement": "On export to MEI each tuplet found holds objects with tuplets of one voice of one measure in their order, two tuplets are nested or have no object in common, every object whose tuplet does not merely end is in one; and the groups found are exactly those of the score.", "quantifier": "all scores, all tuplet marks", "why_tests_cant": "Nesting and grouping depend on start and stop marks of arbitrarily many objects; tests see a few well formed tuplets.", "anchors": ["converter21/mei/meiscore.py: annotateTuplets, annotateScore"]}
{"id": "C91", "title": "Ties found for MEI export are those of the score", "statement": "On export to MEI each tie joins a note that starts a tie with a different note of the same pitch and part that starts when the first has ended, in the same measure or the next; no note starts two; and the end is the note that the tie leads to: the next of that pitch.", "quantifier": "all parts, any measures, voices, chords and tie marks", "why_tests_cant": "The search runs over all open ties, voices and measures at once, twice per measure; tests see single voices with well paired marks.", "anchors": ["converter21/mei/meiscore.py: annotateTies, annotateScore"]}
{"id": "C92", "title": "Every note line of a Humdrum file is imported in exactly one measure", "statement": "On import of a Humdrum file each line of notes belongs to exactly one measure; two such lines share a measure exactly if no barline stands between them; measures come in the order of the file and none is without notes.", "quantifier": "all accepted Humdrum files", "why_tests_cant": "Where measures start and end depends on any arrangement of barlines, comments, interpretations and notes; tests see files with regular barlines.", "anchors": ["converter21/humdrum/humdrumfile.py: createMusic21Stream, _measureEndLineIndex, _measureKey, _repositionStartIndex, _prepareScoreLayerTokens", "converter21/humdrum/humdrumfilebase.py: spineStartListOfType"]}
{"id": "C93", "title": "Exactly the measures between !!ignore and !!Xignore are left out", "statement": "On import of a Humdrum file a measure is left out exactly if its barline stands between a comment !!ignore and the next !!Xignore.", "quantifier": "all accepted Humdrum files", "why_tests_cant": "Depends on the position of comments relative to every barline of the file.", "anchors": ["converter21/humdrum/humdrumfile.py: _convertSystemMeasure, _initializeIgnoreLineVector"]}
{"id": "C94", "title": "Each token of a staff lands in exactly one voice, in order", "statement": "On import of a measure, voice k of a staff is made of the k-th token of that staff on each line, in order, nothing added, duplicated or left out but empty comments; this never fails; and notes that stand on one line of a staff are in different voices.", "quantifier": "all measures, any number of staves, splits, joins and other spines", "why_tests_cant": "Voices appear and vanish at any line and other spines stand between; tests see few split patterns.", "anchors": ["converter21/humdrum/humdrumfile.py: _generateStaffLayerTokensForMeasure, _calculateStaffStartsIndexByTrack"]}
{"id": "C95", "title": "Gaps in a voice are filled exactly once with invisible rests", "statement": "On import, if a token of a voice is later than the end of the note before it in that voice, invisible rests without gap or overlap cover exactly the time between, once; no rests are put anywhere else; a voice that begins in the middle of a measure begins with rests from the start of the measure.", "quantifier": "all measures, voices and rational durations", "why_tests_cant": "Gap lengths range over all rationals and gaps arise at any line where a voice reappears.", "anchors": ["converter21/humdrum/humdrumfile.py: _generateStaffLayerTokensForMeasure, makeFakeRestTokens, _findLastNonNullDataToken, _fillContentsOfLayer", "converter21/shared/m21utilities.py: getPowerOfTwoQuarterLengthsWithDotsAddingTo"]}
{"id": "C96", "title": "Repeat brackets cover exactly the measures of their ending", "statement": "On import of a Humdrum file a measure is in a repeat bracket with number n exactly if the section label in force at its first note is the name of the section followed by n; it is in one bracket only; a bracket covers measures that follow each other and are of the same ending of the same section; and labels never make the import fail.", "quantifier": "all accepted Humdrum files, any section labels", "why_tests_cant": "Labels are looked up forwards and backwards across any number of lines and brackets depend on all measures before; tests have a first and a second ending.", "anchors": ["converter21/humdrum/humdrumfile.py: _prepareSections, _setupSystemMeasures, _prepareSystemMeasures"]}
{"id": "C97", "title": "Key and time signature changes survive import at their times", "statement": "When a Humdrum file is imported, each time signature and key signature of a staff appears in the imported part, at the time where it stands in the file: those above the first notes at the start of the first measure, later ones in their measure at their offset from the barline, with the meter symbol that goes with the time signature and the key designation that goes with the key signature. A staff gets no signature that is not written on it.", "quantifier": "for every list of staves, every measure and every content of its lines", "why_tests_cant": "The places and numbers of signatures in a measure, the order of meter symbol and time signature, and the staves they belong to combine without bound.", "anchors": ["converter21/humdrum/humdrumfile.py:_addKeyTimeChangesToSystemMeasures", "converter21/humdrum/humdrumfile.py:_createPart", "converter21/humdrum/m21convert.py:m21KeySignature", "converter21/humdrum/m21convert.py:m21TimeSignature"]}
{"id": "C98", "title": "Measure numbers survive export and re-import", "statement": "A measure's number and suffix come back after the score is written to Humdrum and read again, whatever the style of the barline that begins the measure and whatever fermata it carries. A first measure that begins without a barline gets the number of the first barline if no notes stand above that barline, and is unnumbered otherwise.", "quantifier": "for every number, every suffix, every barline style and fermata, every file", "why_tests_cant": "Numbers, suffixes and the barline styles with which they share a token are unbounded in number.", "anchors": ["converter21/humdrum/humdrumfile.py:_getMeasureNumber", "converter21/humdrum/humdrumtoken.py:barlineNumber", "converter21/humdrum/humdrumtoken.py:barlineName", "converter21/humdrum/measuredata.py:_parseMeasure", "converter21/humdrum/humgrid.py:createBarToken"]}
{"id": "C99", "title": "Notes and changes in an exported MEI layer keep their times", "statement": "A reader of an exported MEI layer who adds up the durations of its contents meets every note, rest, clef, key and time signature at its offset in the measure: gaps, also before the start of the voice, are filled with spaces of exactly their length. A clef, key or time signature of the measure stands in every layer in which something begins at that time, written in full once per staff and as a reference after that.", "quantifier": "for every voice, every gap, every list of changes and any number of layers", "why_tests_cant": "Offsets, gaps and the interleaving of changes with the objects of several voices combine without bound.", "anchors": ["converter21/mei/meilayer.py:makeRootElement", "converter21/mei/meistaff.py:makeRootElement", "converter21/mei/m21objectconvert.py:convertM21ObjectToMeiSameAs", "converter21/mei/meireader.py:layerFromElement"]}
{"id": "C100", "title": "Durations survive export to MEI and re-import", "statement": "A note or rest written to MEI and read again has the same note value and number of dots. If its sounding length differs from its written one, the sounding length comes back too.", "quantifier": "for every note value, number of dots, tuplet ratio and sounding length", "why_tests_cant": "Written and sounding lengths are independent, and each attribute is left out when it agrees with another; the combinations with arbitrary rational lengths cannot be listed.", "anchors": ["converter21/mei/m21objectconvert.py:m21DurationToMeiDurDotsGrace", "converter21/mei/meireader.py:durationFromAttributes", "converter21/shared/m21utilities.py:makeDuration"]}
{"id": "C101", "title": "Tremolo marks survive export to MEI and re-import", "statement": "A tremolo on a note, or between two notes, written to MEI and read again has the same number of marks, whatever the value and dots of the notes; notes of a tremolo between two notes sound half their written length.", "quantifier": "for every note value, number of dots and number of marks", "why_tests_cant": "The number written is the sum of marks and flags, read back on a different path for each kind of tremolo.", "anchors": ["converter21/mei/meilayer.py:processBTremState", "converter21/mei/meilayer.py:processBeamTupletFTremStart", "converter21/mei/meireader.py:bTremFromElement", "converter21/mei/meireader.py:fTremFromElement"]}
{"id": "C102", "title": "Pitches survive export to MEI and re-import", "statement": "A note written to MEI and read again has the same step, sounds in the same octave, is altered by the same amount, and shows the same accidental or none; this holds for single notes and notes of chords, under ottavas of either kind or none.", "quantifier": "for every step, octave, accidental, and every list of ottavas over the note", "why_tests_cant": "Octaves are unbounded and written in two attributes according to the kind of ottava, of which the reader uses one.", "anchors": ["converter21/mei/m21objectconvert.py:_noteToMei", "converter21/mei/m21objectconvert.py:_getOttavaShiftAndTransposing", "converter21/mei/meireader.py:noteFromElement", "converter21/mei/meireader.py:_ppOctaves"]}
{"id": "C103", "title": "Vertical positions survive export to MEI and re-import", "statement": "An unpitched note or a rest moved from its usual place, written to MEI and read again, stands at the same place on the staff, whatever the clefs.", "quantifier": "for every position and every sequence of clefs", "why_tests_cant": "Positions are numbers without bound that are turned into letters and octaves, relative to a clef that the two sides look up differently.", "anchors": ["converter21/mei/m21objectconvert.py:meiLocToM21DisplayName", "converter21/mei/m21objectconvert.py:m21DisplayPitchToMeiLoc", "converter21/mei/meiscore.py:annotatePositionedRests", "converter21/mei/meireader.py:restFromElement"]}
{"id": "C104", "title": "Clefs, key signatures and time signatures survive export to MEI and re-import", "statement": "A clef comes back with sign, line and octave; a key signature with its number of sharps or flats, and a key with tonic and mode; a time signature with its numbers and its sign; each hidden if and only if it was.", "quantifier": "for every clef, key signature and time signature", "why_tests_cant": "Signatures are numbers without bound, and a key is written twice, by tonic and by number, with a rule for disagreement.", "anchors": ["converter21/mei/m21objectconvert.py:m21ClefToMei", "converter21/mei/m21objectconvert.py:m21KeySigToMei", "converter21/mei/m21objectconvert.py:m21TimeSigToMei", "converter21/mei/meireader.py:_clefFromElement", "converter21/mei/meireader.py:_keySigFromAttrs", "converter21/mei/meireader.py:_timeSigFromAttrs"]}
{"id": "C105", "title": "Ties that an MEI file puts on whole chords reach the notes that are repeated", "statement": "When a chord has a tie attribute, each of its notes without a tie of its own is tied if the next note or chord of the same layer and staff has its pitch, in the same measure or after the barline; and no note is tied whose pitch does not come again in the same layer.", "quantifier": "for every file, as a sequence of layers, and every chord in it", "why_tests_cant": "The chord waits in a table while other layers and staves are read, for an unbounded number of notes and up to two measures.", "anchors": ["converter21/mei/meireader.py:chordFromElement", "converter21/mei/meireader.py:noteFromElement", "converter21/mei/meireader.py:layerFromElement", "converter21/mei/meireader.py:_tieFromAttr"]}
{"id": "C106", "title": "Beams of every level come back when a Humdrum group is read", "statement": "Each note of a beamed group gets as many beams as its value asks for; a beam is begun, kept on, ended or a hook according to whether the neighbouring notes have it; secondary breaks written by the exporter are read again at the same place and level; rests in the group change nothing.", "quantifier": "for every beamed group: any number of notes, values, breaks and rests", "why_tests_cant": "Beams of a note are changed when the next note is read, and breaks are inferred from counts of open beams on three tokens; groups have any length and any pattern of values.", "anchors": ["converter21/humdrum/humdrumfile.py:_continueBeam", "converter21/humdrum/humdrumfile.py:_startBeam", "converter21/humdrum/humdrumfile.py:_storeSecondaryBreakBeamCount", "converter21/humdrum/m21convert.py:_getHumdrumBeamStringFromM21Beams"]}
{"id": "C107", "title": "Beams of every level come back from MEI", "statement": "In a beam of an MEI file each note gets as many beams as it has flags; a beam is begun, kept on, ended or a hook according to whether the neighbouring notes have it; secondary breaks come back after export; rests, notes without flags and grace notes among others are left alone.", "quantifier": "for every beam element: any number of notes, values, breaks and other contents", "why_tests_cant": "Beams are given in three passes over the group, each of which looks at the nearest neighbour that takes part; groups have any length and any pattern of values.", "anchors": ["converter21/mei/meireader.py:beamTogether", "converter21/mei/meireader.py:applyBreaksecs", "converter21/mei/meireader.py:beamGroupIsAllGraceNotes", "converter21/mei/meiscore.py:annotateBeams"]}
{"id": "C108", "title": "MEI elements that name notes by id reach the right notes", "statement": "On MEI import a <slur>, <hairpin>, <tie>, <tupletSpan> or <beamSpan> that names notes by id affects exactly these notes, with the first note as the start and the last as the end, however many such elements name the same note: a slur goes from its start note to its end note, a note says of ties exactly what the <tie> elements and its own attribute say, and notes listed in a <tupletSpan> get its numbers.", "quantifier": "all lists of such elements, all note ids, all reading orders of the notes", "why_tests_cant": "the numbers of elements that share a note and the order in which notes are read are unbounded; tests use one slur or tie per note, with notes in order", "anchors": ["converter21/mei/meireader.py:_ppSlurs", "converter21/mei/meireader.py:_ppTies", "converter21/mei/meireader.py:_ppBeams", "converter21/mei/meireader.py:_ppTuplets", "converter21/mei/meireader.py:_ppHairpins", "converter21/mei/meireader.py:addSlurs", "converter21/mei/meireader.py:addHairpins", "converter21/mei/meishared.py:removeOctothorpe"]}
{"id": "C109", "title": "Layers of exported MEI are numbered without clashes", "statement": "In exported MEI the layers of a staff have distinct numbers; a voice whose id is a number keeps it, other voices get free numbers, and a string id becomes the label; numbers that were chosen survive a way through MEI and back.", "quantifier": "all lists of voices of a staff with any mix of numbers, strings and default ids", "why_tests_cant": "the mix and order of ids is unbounded; a test has one or two voices", "anchors": ["converter21/mei/meilayer.py:makeRootElement", "converter21/mei/meistaff.py:makeRootElement", "converter21/mei/meireader.py:layerFromElement"]}
{"id": "C110", "title": "Tuplet notes of a Humdrum layer are grouped as written", "statement": "In a layer of a Humdrum measure every note whose undotted length is not a power of two is in exactly one group of neighbouring notes, and no other note is; a group ends at the end of a beam whose length can be written with dots, or as soon as its length is a power of two (or reaches the length the file asks for), or at an ordinary note, a tuplet break or the end of the measure.", "quantifier": "all layers with any notes, beams, layout parameters and breaks", "why_tests_cant": "the lengths and beams of the notes of a layer are unbounded; tests use single triplets", "anchors": ["converter21/humdrum/humdrumfile.py:_prepareBeamAndTupletGroups", "converter21/humdrum/humdrumfile.py:_findTupletEndByBeamWithDottedPow2Duration", "converter21/humdrum/humdrumfile.py:_checkForTupletForcedBreak"]}
{"id": "C111", "title": "Tuplets of a Humdrum layer fit their notes", "statement": "On Humdrum import an ordinary note gets no tuplet; the other notes are in tuplets with one start and one stop, whose numbers make the written length of every note in it a power of two with the dots of the token, so that all notes keep their lengths; a tuplet starts at the first note of a group, except where a beam goes on from a group with the same ratio.", "quantifier": "all layers with any notes, beams and layout parameters", "why_tests_cant": "the mix of ratios, lengths and beams is unbounded; tests use one triplet or one beam", "anchors": ["converter21/humdrum/humdrumfile.py:_prepareBeamAndTupletGroups", "converter21/humdrum/humdrumfile.py:_mergeTupletsCuttingBeam", "converter21/humdrum/humdrumfile.py:_assignTupletScalings", "converter21/humdrum/humdrumfile.py:_handleGroupState", "converter21/humdrum/m21convert.py:m21DurationWithTuplet"]}
{"id": "C112", "title": "Lyrics survive export to Humdrum and import", "statement": "The lyrics of every note come back from a Humdrum file with the same numbers, the same words (divided into the same parts of an elision), and the same verse labels; nothing is added to other notes; in a staff of several voices the lyrics of a moment go to the first voice that sounds a note then.", "quantifier": "for all notes of all measures, all lists of lyrics, numbers, texts, labels, marks of the file and numbers of voices", "why_tests_cant": "Needs arbitrary verse numbers with gaps and repetitions, arbitrary texts and labels, and the state of labels not yet used carried over notes, voices and measures; tests check a few hymns", "anchors": ["converter21/humdrum/humdrumwriter.py:_addLyrics", "converter21/humdrum/gridside.py:setVerse", "converter21/humdrum/gridmeasure.py:addVerseLabels", "converter21/humdrum/humdrumfile.py:_convertVerses", "converter21/humdrum/humdrumfile.py:_getVerseLabels", "converter21/humdrum/humdrumfile.py:_getVerseLabelText"]}
{"id": "C113", "title": "The text of an MEI element is read as it is shown", "statement": "The text of a direction, tempo, dynamic, syllable, name or title in an MEI file is what the document shows, in document order: its own text, the text of its sub-elements and the text after each of them. Line breaks and glyphs become characters, of alternatives one is taken (lem before rdg, corr before reg before the first), white space that is only the layout of the file is dropped, and of the styles given by rend elements the last one of each kind counts.", "quantifier": "for all element trees of any depth and width, all texts, attributes, and glyph tables", "why_tests_cant": "element trees nest editorial and rendering elements in unboundedly many ways; tests only try a few shapes", "anchors": ["converter21/mei/meishared.py:textFromElem", "converter21/mei/meishared.py:chooseSubMeiElement"]}
{"id": "C114", "title": "Texts of the score keep their words and their look in MEI", "statement": "A text expression or dynamic written to MEI and read back has the same words, is italic and bold as before, and has the same size, font family, justification, colour, enclosing shape and place (above, below, between, unplaced).", "quantifier": "for all texts, all styles, placements and vertical offsets, all layouts of the file", "why_tests_cant": "look is the product of eight style fields with overriding (weight over font style, placement over offset); tests try a few", "anchors": ["converter21/mei/m21objectconvert.py:emitStyledTextElement", "converter21/mei/m21objectconvert.py:m21PlacementToMei", "converter21/mei/m21objectconvert.py:m21FontStyleAndWeightToMei", "converter21/mei/meireader.py:_textExpressionFromPieces", "converter21/mei/meireader.py:dirFromElement"]}
{"id": "C115", "title": "A text that names a note by id is read like one with a time stamp", "statement": "A direction, dynamic or tempo of an MEI file that names a note with @startid gives the note the same object (kind, words, style, place) that it would give with @tstamp, whatever other texts are in the file.", "quantifier": "for all lists of directions, dynamics and tempos of a file and all notes", "why_tests_cant": "the texts meet in one table of attributes per note; interference needs several elements on one note", "anchors": ["converter21/mei/meireader.py:_ppDirsDynamsTempos", "converter21/mei/meireader.py:_ppConclude", "converter21/mei/meireader.py:addDirsDynamsTempos"]}
{"id": "C116", "title": "Lyrics written to MEI are read back as written", "statement": "The verses of a note written to MEI and read back have the same numbers, labels and places, and the same syllables in the same order: the same text, the same place in the word (beginning, middle, end, whole), italic and bold as before, and the same font family and justification.", "quantifier": "for all lists of verses, with any numbers (also negative), labels and any number of syllables per verse, all styles and layouts of the file", "why_tests_cant": "texts, places in the word, hyphens, labels and styles combine; tests try single verses", "anchors": ["converter21/mei/m21objectconvert.py:m21LyricsToMei", "converter21/mei/m21objectconvert.py:m21SyllableToMei", "converter21/mei/meireader.py:sylFromElement", "converter21/mei/meireader.py:verseFromElement", "converter21/mei/meireader.py:stringFromElement"]}
{"id": "C117", "title": "The chord text written for a chord symbol denotes that chord", "statement": "The Harte text that is written for a chord symbol (in a harmony spine of a Humdrum file or as the type of a harm element of MEI) denotes, in Harte's notation, a chord of the same root, the same bass note and the same degrees: those of the kind, without those taken away, with those altered and added.", "quantifier": "for all kinds of music21's table, all roots and basses with any number of accidentals, all lists of modifications", "why_tests_cant": "kinds, modifications and bass notes combine; tests try a few chords", "anchors": ["converter21/shared/m21utilities.py:makeHarteFromChordSymbol", "converter21/humdrum/humdrumwriter.py:2954", "converter21/mei/m21objectconvert.py:1890"]}
{"id": "C118", "title": "A Harte chord text is read as the chord that it denotes", "statement": "A text of Harte's notation is read as a chord symbol whose root, bass and degrees are those that the text denotes.", "quantifier": "for all roots, all shorthands, all lists of degrees (also repeated ones and ones taken away), all basses, and any order in which python enumerates a set", "why_tests_cant": "the kind is searched among all kinds of a table and the rest becomes modifications; the search and the order of a set matter", "anchors": ["converter21/shared/m21utilities.py:makeChordSymbolFromHarte", "converter21/humdrum/humdrumfile.py:1743", "converter21/mei/meireader.py:8073"]}
{"id": "C119", "title": "Chord symbols come back from Harte texts with the same notes", "statement": "A chord symbol written as a Harte text and read back has the same root, the same bass and the same degrees (the kind may be named otherwise); a symbol for no chord is read back as one.", "quantifier": "for all kinds, roots, basses and lists of modifications, and any order of python's sets", "why_tests_cant": "round trip over all chords", "anchors": ["converter21/shared/m21utilities.py:makeHarteFromChordSymbol", "converter21/shared/m21utilities.py:makeChordSymbolFromHarte"]}
{"id": "C120", "title": "Ornaments written to Humdrum are read as they were meant", "statement": "When a score with a trill, mordent or turn on a note is written to Humdrum and read again, the note has exactly that ornament: of the same kind (upper or lower mordent, inverted or not, delayed or not), to neighbour notes of the same pitch, whatever other expressions the note has.", "quantifier": "all notes and chords, all neighbour pitches, all expressions before and behind, all states of the accidentals in the bar", "why_tests_cant": "The text depends on the semitones between the note and its neighbours, the neighbour is found again through base 40 and the accidentals in force; tests cover a few natural trills, not every pitch, octave, accidental and state.", "anchors": ["converter21/humdrum/m21convert.py:2579-2815", "converter21/humdrum/humdrumfilecontent.py:1190-1465", "converter21/humdrum/humdrumfile.py:6694-7340"]}
{"id": "C121", "title": "Fermatas written to Humdrum are read as they were", "statement": "When a note with a fermata is written to Humdrum and read again it has one fermata of the same type (upright or inverted); a note without fermata has none.", "quantifier": "all notes and chords, all other expressions", "why_tests_cant": "The sign of the fermata is looked for anywhere in the text of the chord, among all signs of articulations and ornaments.", "anchors": ["converter21/humdrum/m21convert.py:2628-2632", "converter21/humdrum/humdrumfile.py:6907-6951", "converter21/humdrum/humdrumfile.py:7351-7360"]}
{"id": "C122", "title": "Wavy lines of trills survive Humdrum", "statement": "A trill with a wavy line written to Humdrum and read again has its wavy line, and the notes under the line do not get trills of their own.", "quantifier": "all notes and chords, all trills and other expressions", "why_tests_cant": "The wavy line is a property of the doubled letter at the first note and of the tripled letter at the others; only texts with both kinds show whether it is kept.", "anchors": ["converter21/humdrum/m21convert.py:2612-2650", "converter21/humdrum/humdrumfile.py:6733-6905"]}
{"id": "C123", "title": "Bad beams are repaired", "statement": "When the beams of a score are repaired, every beam of a note that still continues afterwards is taken up by a beam of the same level in the next note of the voice that does not begin there, also across a barline; at the end of the last measure no beam continues. A beam that continued becomes a stop exactly if the next note does not take it up. Nothing but continues and stops is changed, beams that were right stay as they are, and a second repair changes nothing.", "quantifier": "all scores (any number of parts, measures, voices, notes), all beams", "why_tests_cant": "The repair works in place and carries notes over barlines; the claim is about every sequence of notes, in every arrangement of voices.", "anchors": ["converter21/shared/m21utilities.py:4067-4178"]}
{"id": "C124", "title": "Ranges between date objects are read as written", "statement": "The Humdrum text of a range whose ends are single dates (certain, approximate, uncertain), relative dates, ranges or selections is read as the same two date objects; reading a Humdrum file leaves such a text as it is; the text is taken for a plain range of two dates exactly if both ends are plain dates.", "quantifier": "all pairs of date objects, all dates with any error marks", "why_tests_cant": "The space of pairs of date objects is unbounded, and the divider inside an end could be taken for the divider of the range.", "anchors": ["converter21/shared/m21utilities.py:2440-2480", "converter21/shared/m21utilities.py:2163-2255", "converter21/humdrum/humdrumfile.py:10898-10923"]}
{"id": "C125", "title": "A composer's dates of birth and death survive MEI", "statement": "The dates of birth and death of a composer, given as a Humdrum range, are written to MEI as a date of birth and a date of death that are read as the two date objects given, and come back as the same Humdrum text.", "quantifier": "all pairs of date objects", "why_tests_cant": "Depends on the interplay of four parsers and writers over unboundedly many date texts.", "anchors": ["converter21/mei/meimetadata.py:1095-1133", "converter21/mei/meimetadatareader.py:876-900", "converter21/shared/m21utilities.py:1797-1877", "converter21/shared/m21utilities.py:1959-2113"]}
{"id": "C126", "title": "Ornaments survive MEI", "statement": "A trill, mordent or turn on a note or chord that is written to MEI is read again as one with the same direction, accidentals, delay and placement, and notes without ornaments are read without.", "quantifier": "all staves of notes with any ids and expressions, all wavy lines", "why_tests_cant": "Writer and reader communicate through attributes collected per note id over the whole file; only examples of single ornaments can be tested.", "anchors": ["converter21/mei/m21objectconvert.py:1365-1556", "converter21/mei/meilayer.py:641-788", "converter21/mei/meireader.py:1304-1484", "converter21/mei/meireader.py:2549-2742"]}
{"id": "C127", "title": "Fermatas survive MEI", "statement": "A fermata on a note, chord or rest that is written to MEI is read again as one with the same type, shape and placement.", "quantifier": "all staves of notes and rests with any expressions", "why_tests_cant": "Type and placement share one rule with defaults on both sides; all combinations with other expressions cannot be enumerated.", "anchors": ["converter21/mei/m21objectconvert.py:1558-1592", "converter21/mei/meireader.py:1267-1297", "converter21/mei/meireader.py:4538-4571"]}
{"id": "C128", "title": "Wavy lines of trills survive MEI", "statement": "The wavy lines of trills that are written to MEI are read again as lines from the same first to the same last notes, and there are no others.", "quantifier": "all staves and all lists of wavy lines", "why_tests_cant": "The writer finds lines by searching a spanner bundle while it walks the notes, the reader by attributes put on notes; the result depends on all lines together.", "anchors": ["converter21/mei/m21objectconvert.py:1201-1272", "converter21/mei/m21objectconvert.py:1388-1396", "converter21/mei/meilayer.py:641-662", "converter21/mei/meireader.py:1346-1375", "converter21/mei/meireader.py:2549-2560"]}
{"id": "C129", "title": "Expressions at a time stamp reach the right note or barline", "statement": "An ornament or fermata that an MEI file gives with a time stamp is put on the first note or chord (a fermata also on a rest) at that time, and a fermata at the end of the measure on the barline there; the same expression is made as if it were given with a note's id.", "quantifier": "all measures with any voices and barlines, all elements and attributes", "why_tests_cant": "Depends on the order of objects in a measure and on all attributes of the element.", "anchors": ["converter21/mei/meireader.py:6920-7060", "converter21/mei/meireader.py:7359-7606", "converter21/mei/meireader.py:8352-8408", "converter21/mei/meistaff.py:207-218"]}
{"id": "C130", "title": "Octave lines written to MEI keep what is shown and what sounds", "statement": "A score with 8va, 8vb, 15ma, 15mb, 22da and 22db lines that is written to MEI and read again has the same octave lines over the same notes, chords and rests, and every pitch is shown in the same octave and sounds in the same octave as before, whether the line was kept with written or with sounding pitches.", "quantifier": "for all objects of a voice with distinct ids, all octave lines with distinct first and last objects, and all pitches", "why_tests_cant": "Whether a pitch is moved depends on the line, on whether the line is transposing, on whether the pitch belongs to a note or a chord, and on where the ends are among the objects; tests have a handful of such combinations.", "anchors": ["converter21/mei/m21objectconvert.py:219-245", "converter21/mei/m21objectconvert.py:320-379", "converter21/mei/m21objectconvert.py:1940-1990", "converter21/mei/meireader.py:1475-1510", "converter21/mei/meireader.py:2403-2423", "converter21/mei/meireader.py:4766-4771"]}
{"id": "C131", "title": "Octave lines in Humdrum leave sounding pitches as they are", "statement": "Reading a Humdrum file with *8va, *15ma etc. and transposing instruments gives a score that sounds as the file says, and exporting a score to Humdrum writes the pitches that sound; so a file that is read and written keeps its pitches.", "quantifier": "for all sequences of pitches under any octave lines and all instrument transpositions", "why_tests_cant": "The result depends on three independent things: whether there are octave lines, whether the instrument transposes, and whether the part is kept at sounding pitch; the failing combination is a common one, but needs a comparison of sounding pitches to be seen.", "anchors": ["converter21/humdrum/humdrumfile.py:729-740", "converter21/humdrum/humdrumfile.py:2302-2330", "converter21/humdrum/humdrumfile.py:11877", "converter21/humdrum/staffdata.py:58-68"]}
{"id": "C132", "title": "Transpositions of instruments are kept in MEI", "statement": "A transposition given by @trans.diat and @trans.semi in MEI is read as an interval of that many semitones and that many steps, whether or not the whole octaves are counted in @trans.diat; and a part of a transposing instrument that is written to MEI sounds the same when read again.", "quantifier": "for all numbers of octaves, steps and semitones, up and down, and all parts", "why_tests_cant": "The rule that adds missing octaves compares steps and semitones with a tolerance that grows with the number of octaves; only finitely many intervals can be tried.", "anchors": ["converter21/mei/meireader.py:2138-2180", "converter21/mei/meireader.py:3818-3824", "converter21/mei/meireader.py:9416", "converter21/mei/meiscore.py:222-300"]}
{"id": "C133", "title": "Notes, chords and rests look the same after MEI export and re-import", "statement": "Every note, chord and rest of a voice that is written to MEI and read again is there again, with the same stem direction (or none), note head, colour, cue size and visibility, and grace notes are accented or not as before.", "quantifier": "for all sequences of notes, chords and rests, all combinations of these properties, all colours", "why_tests_cant": "The properties are written as independent attributes and read by separate code for notes, chords and rests, which agree only for some of them; a test of one property on one kind of object says nothing about the others.", "anchors": ["converter21/mei/m21objectconvert.py:109-156", "converter21/mei/m21objectconvert.py:219-277", "converter21/mei/m21objectconvert.py:693-763", "converter21/mei/m21objectconvert.py:2230-2242", "converter21/mei/meireader.py:4831-5020", "converter21/mei/meireader.py:5565-5625"]}
{"id": "C134", "title": "Articulations survive MEI export and re-import", "statement": "The articulations of a note or chord that is written to MEI and read again are the same, in the same order, with the same placement; and a list of articulations in one attribute of a file is read as all of them in order.", "quantifier": "for all lists of articulations and all lists of values in an attribute", "why_tests_cant": "Two tables in opposite directions, a splitting of texts and values that stand for two articulations; lists have no bound.", "anchors": ["converter21/mei/m21objectconvert.py:440-485", "converter21/mei/meireader.py:635-660", "converter21/mei/meireader.py:767-817", "converter21/mei/meireader.py:4156-4215"]}
{"id": "C135", "title": "Tuplet elements in MEI files scale exactly the notes in them", "statement": "Of a layer of an MEI file with tuplet elements, nested in each other and in beams in any way, everything is read in the order of the file; each note has exactly the tuplets around it, innermost first, with their numbers and looks, begins those of which it is the first note and ends those of which it is the last, and sounds as long as written times the ratio of every tuplet around it; grace notes are not changed.", "quantifier": "for all trees of beams and tuplets, all notes, durations, numbers and looks", "why_tests_cant": "Nesting has no bound, and which note is first or last depends on grace notes and clefs in between; tests try single tuplets.", "anchors": ["converter21/mei/meireader.py:2940-3084", "converter21/mei/meireader.py:6163-6277"]}
{"id": "C136", "title": "A tupletSpan in an MEI file scales the notes from its first to its last", "statement": "When tuplets of a layer are given by tupletSpan elements with a first and a last note, one after the other, exactly the notes from the first to the last of each get one tuplet, with its numbers, its beginning and end, and the looks that the element says; all other notes stay as they are.", "quantifier": "for all layers, with or without beams, and all lists of spans in any order in the file", "why_tests_cant": "The spans are found by state that is carried along the layer; whether one span influences another shows only with several spans that differ in which attributes they have.", "anchors": ["converter21/mei/meireader.py:1105-1192", "converter21/mei/meireader.py:3086-3197", "converter21/mei/meireader.py:4760-4769", "converter21/mei/meireader.py:4999-5035"]}
{"id": "C137", "title": "Tuplets survive MEI export and re-import", "statement": "A tuplet that is written to MEI, as a tuplet element or as a span that lists its notes, is read again on the same notes with the same numbers, bracket, shown numbers, place, beginning and end; other notes get none.", "quantifier": "for all tuplets, all lists of notes, all other spans in the file", "why_tests_cant": "Bracket, numbers and place are merged into five attributes and taken apart again, with defaults on both sides; the combinations are many and lists of notes have no bound.", "anchors": ["converter21/mei/m21objectconvert.py:88-107", "converter21/mei/m21objectconvert.py:1185-1194", "converter21/mei/m21objectconvert.py:1316-1357", "converter21/mei/meireader.py:1119-1143", "converter21/mei/meireader.py:2940-3084"]}
{"id": "C138", "title": "Dynamics survive Humdrum export and re-import", "statement": "A dynamic with a standard value (m, s, r, z, f and p forms), alone, in brackets or among words, that is written to a Humdrum file is read with the same words; the spaces are kept too.", "quantifier": "for all values of dynamics, placements, justifications, numbers of layout comments", "why_tests_cant": "The value is cut out by four regular expressions in three positions, and the rest goes into a format with a place holder in a layout comment; texts have no bound.", "anchors": ["converter21/humdrum/m21convert.py:2178-2331", "converter21/humdrum/humdrumwriter.py:2481-2488", "converter21/humdrum/humdrumwriter.py:2930-2941", "converter21/humdrum/humdrumfile.py:8780-8869", "converter21/humdrum/humdrumfile.py:10224-10267"]}
{"id": "C139", "title": "Hairpins survive Humdrum export and re-import", "statement": "Hairpins that begin and end in a part are read from the Humdrum file that is written with the same kind, beginning and end, and dynamics at those moments are read too.", "quantifier": "for all lists of hairpins and dynamics of a part, of any length", "why_tests_cant": "Beginnings and ends are only marks in a column of text, paired by a search forward whose outcome depends on everything in between.", "anchors": ["converter21/humdrum/humdrumfile.py:8940-9100", "converter21/humdrum/humdrumwriter.py:2481-2488"]}
{"id": "C140", "title": "Every dynamic of a line belongs to one staff", "statement": "In each line of a Humdrum file every dynamic in a column for dynamics is read once, for the staff directly left of the column, whatever voices and grace notes the staves have.", "quantifier": "for all lines with any number of staves, voices and other columns", "why_tests_cant": "The reader looks to the right from every note of every voice and remembers which columns it has used; grace notes look past other notes; combinations of voices and columns have no bound.", "anchors": ["converter21/humdrum/humdrumfile.py:8570-8800"]}
{"id": "C141", "title": "Place and staff of dynamics survive Humdrum export and re-import", "statement": "A dynamic or hairpin of any staff of a part is read from the Humdrum file that is written with its place (above, below, centred), at its staff, with its justification.", "quantifier": "for all places, staves, numbers of staves, values without colons, states of lyrics", "why_tests_cant": "Place and staff are one number in a layout comment, read with defaults that depend on lyrics and on what other parts of the file said.", "anchors": ["converter21/humdrum/m21convert.py:2266-2331", "converter21/humdrum/m21convert.py:2425-2439", "converter21/humdrum/humdrumfile.py:8602-8612", "converter21/humdrum/humdrumfile.py:8811-8925", "converter21/humdrum/humdrumfile.py:8984-9061"]}
{"id": "C142", "title": "A tempo text with a note and a number survives Humdrum export and re-import", "statement": "A metronome mark whose text has a note with its dots, an equals sign and a number (with words around) is written to Humdrum and read as a mark for the same note with the same dots, the same number, and the same text; texts made by the reader come back unchanged.", "quantifier": "for all words around, notes, numbers of dots, spaces, numbers with or without fraction", "why_tests_cant": "The text is turned into names in brackets, escaped, found by several overlapping regular expressions and turned back; only a few texts can be tried.", "anchors": ["converter21/humdrum/m21convert.py:1935-2104", "converter21/humdrum/convert.py:395-565", "converter21/humdrum/humdrumfile.py:9750-9783", "converter21/humdrum/humdrumfile.py:10113-10211", "converter21/humdrum/humdrumfile.py:10318-10363"]}
{"id": "C143", "title": "A plain tempo text and its number survive Humdrum export and re-import", "statement": "A tempo with words only comes back from Humdrum with the same words, spaces and newlines, no note, and the number of quarters a minute rounded to the nearest whole number.", "quantifier": "for all texts without notes or brackets, all non-negative tempos", "why_tests_cant": "Any text may look like a metronome mark to the reader; unit tests cover only some words.", "anchors": ["converter21/humdrum/m21convert.py:2035-2104", "converter21/humdrum/humdrumtoken.py:1511-1528", "converter21/humdrum/humdrumfile.py:10007-10014", "converter21/humdrum/humdrumfile.py:10113-10211"]}
{"id": "C144", "title": "Arpeggios survive Humdrum export and re-import", "statement": "A chord with an arpeggio, and notes and chords of one or several staves arpeggiated together, are marked in the Humdrum file so that exactly the same notes and chords are arpeggiated together when it is read.", "quantifier": "for all lines of tokens, numbers of staves and voices, expressions of the notes", "why_tests_cant": "Which notes belong together is only given by their order in the line, over any number of staves, voices and other spines.", "anchors": ["converter21/humdrum/m21convert.py:2562-2650", "converter21/shared/m21utilities.py:990-1015", "converter21/humdrum/humdrumfile.py:6534-6685"]}
{"id": "C145", "title": "Arpeggios survive MEI export and re-import", "statement": "Every arpeggio of a score comes back from MEI with its type and with exactly its notes, whether it is at one chord or over several.", "quantifier": "for all lists of arpeggios, types, ids, orders of notes", "why_tests_cant": "The notes are found by ids in a list that is put together from three attributes.", "anchors": ["converter21/mei/m21objectconvert.py:1000-1056", "converter21/mei/m21objectconvert.py:1145-1149", "converter21/mei/m21objectconvert.py:1273-1315", "converter21/mei/meireader.py:1554-1653", "converter21/mei/meireader.py:2508-2533"]}
{"id": "C146", "title": "Measures of nested MEI sections arrive once and in order", "statement": "Every part of a score read from MEI has the measures of the file once and in the order of the file, whatever sections and endings they are in; a measure begins with a carried-over repeat exactly if the measure before it, in whatever section, ends with a repeat to both sides.", "quantifier": "for all nestings of sections and endings, all parts", "why_tests_cant": "Sections nest to any depth, and the repeat has to be handed over their borders.", "anchors": ["converter21/mei/meireader.py:8897-9272", "converter21/mei/meireader.py:9290-9412"]}
{"id": "C147", "title": "Definitions between MEI measures take effect in the next measure", "statement": "What a scoreDef or staffDef between measures defines for a part (own objects, else the defaults for all parts) is at the beginning of the next measure of the part, once, and nowhere else.", "quantifier": "for all nestings of sections, all places of definitions, all parts", "why_tests_cant": "Where the next measure is depends on the sections that begin or end in between; unit tests cover flat files.", "anchors": ["converter21/mei/meireader.py:8960-8975", "converter21/mei/meireader.py:9030-9179", "converter21/mei/meireader.py:9270-9272"]}
{"id": "C148", "title": "An MEI ending becomes one bracket over exactly its measures", "statement": "Every part of a score read from MEI has for each ending one repeat bracket with the ending's number and exactly the measures of the ending, and no other brackets.", "quantifier": "for all nestings of sections and endings, all parts", "why_tests_cant": "Endings may hold sections and further endings.", "anchors": ["converter21/mei/meireader.py:9181-9217"]}
{"id": "C149", "title": "Page and system breaks of an MEI file are kept", "statement": "A page or system break between two measures of an MEI file is put into the measure of the top part that follows, a page break before a system break, and into no other measure or part.", "quantifier": "for all nestings of sections, all sequences of breaks and measures", "why_tests_cant": "Which break counts depends on the sections around it and on measures without the top staff.", "anchors": ["converter21/mei/meireader.py:8977-8987", "converter21/mei/meireader.py:9222-9254", "converter21/mei/meireader.py:6771-6810", "converter21/mei/meireader.py:5752-5798"]}
{"id": "C150", "title": "A spanner over several MEI measures ends where it says", "statement": "A spanner whose end is given as a number of measures and a beat has its end on its staff in exactly that measure and at that offset.", "quantifier": "for all sequences of measures, all spanners, all numbers of measures", "why_tests_cant": "Ends wait over any number of measures while others are added.", "anchors": ["converter21/mei/meireader.py:8496-8539", "converter21/mei/meireader.py:8648-8691", "converter21/mei/meireader.py:8741-8766"]}
{"id": "C151", "title": "Voices of an MEI measure fill it without gaps", "statement": "After a measure is read from MEI, each voice of each part has its things in order without gaps, measure rests as long as the measure, and hidden rests up to its end; parts without a staff in the measure get rests of the length of the measure.", "quantifier": "for all measures, numbers of staves and voices, lengths", "why_tests_cant": "The length of the measure comes from whatever voice is longest, and rests have to be split.", "anchors": ["converter21/mei/meireader.py:8547-8603", "converter21/mei/meireader.py:8800-8851", "converter21/mei/meireader.py:6814-6863", "converter21/mei/meireader.py:8874-8895"]}
{"id": "C152", "title": "A metronome mark written to MEI keeps its number and shows it", "statement": "When a score is written to MEI and read again, a metronome mark whose number is stated comes back as one mark with the same number of quarter notes per minute (the number times the length of its note; fractions of a beat are dropped) and with its words, the sign and dots of its note and the number in its text, whatever the words, note, dots and number are.", "quantifier": "all metronome marks with a stated number, all words without spaces at the ends and without ampersands, all notes with a sign except the thirty-second, all placements and styles, all other attributes and file layouts", "why_tests_cant": "Numbers, notes, dots and words are unbounded; which ones come back depends on the sign table, the file layout, mixed text and integer truncation together, and tests only try single marks.", "anchors": ["converter21/mei/m21objectconvert.py:1749-1779", "converter21/mei/m21objectconvert.py:1922-1936", "converter21/mei/m21objectconvert.py:1998-2025", "converter21/mei/meireader.py:7988-8071"]}
{"id": "C153", "title": "The tempo number of a score definition goes to the next tempo only", "statement": "In an MEI file each tempo at a time stamp becomes one metronome mark; its number is its own one, or if it has none that of the last score definition with no tempo mark in between, or else none.", "quantifier": "all sequences of score definitions and tempo elements, all texts of them", "why_tests_cant": "The number kept from a score definition is state that lives across the whole file; tests with one score definition and one tempo do not show where it ends up in other orders.", "anchors": ["converter21/mei/meireader.py:3319-3323", "converter21/mei/meireader.py:7988-8022", "converter21/mei/meireader.py:8220-8243"]}
{"id": "C154", "title": "Titles and numbers of the piece come back from the head of MEI files", "statement": "Exporting metadata with titles, movement names, numbers, act, scene and opus numbers, alternative and popular titles, catalogue names and titles of parent, group, collection and associated works to MEI and importing it gives each of them back, in order (originals before translations), with the language where MEI has one, and invents no title.", "quantifier": "for all metadata with any number of values of these properties whose texts have no spaces at the ends and are not equal to one another", "why_tests_cant": "The values of one property interact with those of others (short title, duplicates, merging of fileDesc and workList, links between works); examples have one of each.", "anchors": ["converter21/mei/meimetadata.py:1150-1413", "converter21/mei/meimetadata.py:1508-2025", "converter21/mei/meimetadatareader.py:513-773", "converter21/mei/meimetadatareader.py:1265-1409"]}
{"id": "C155", "title": "Relations between works in MEI files never stop the import", "statement": "Importing a MEI file whose work list relates works to one another does not raise; a work that the encoded one is part of gives the title of a parent, a group or a collection by the type of the relation, and its title is not taken for one of the piece.", "quantifier": "for all lists of works with any relations, in any order", "why_tests_cant": "Relations of other programs are of many kinds; the tests have only files written by this program.", "anchors": ["converter21/mei/meimetadatareader.py:513-706"]}
{"id": "C156", "title": "Composers with dates, places, nations and aliases survive a trip through MEI heads", "statement": "Write the metadata of a score to an MEI head and read them back: the composers, attributed, suspected and corporate composers come back each under their own key and in order, each name once. Of the birth places, death places and nationalities exactly the first n come back (n: number of composers), equal ones once; dates come back if both birth and death are known; aliases come back for composers of whom something else is known. If no text occurs twice and there are no more texts than composers, everything comes back as it was. Not every alias, place or role comes back.", "quantifier": "for all lists of composers (names, roles), aliases, dates, places and nationalities with trimmed texts, all white space of indentation, all functions for splitting and joining dates", "why_tests_cant": "The lists are of any length and run in parallel; the links between composers and their records go through generated ids and depend on which information is there for which position.", "anchors": ["converter21/mei/meimetadata.py:962-1147", "converter21/mei/meimetadatareader.py:775-918"]}
{"id": "C157", "title": "Overlapping notes are moved apart without losing or changing any", "statement": "Before a score is exported to Humdrum its durations are repaired. Afterwards no note of a voice begins before the one before it ends; every visible note is still in its voice and measure, with its length, in the same order, none earlier than it was, and where it was if nothing in the voice overlapped; notes are moved as little as possible. The only length that changes is that of a whole-note rest alone in a voice in a shorter bar: it lasts a bar of the time signature in force and still looks like a whole rest.", "quantifier": "for all scores with equally many measures in all parts, all notes with lengths of at least 0, all time signatures", "why_tests_cant": "Moves cascade along voices of any length, and the repair of one step makes work for the next; a test sees single cases.", "anchors": ["converter21/shared/m21utilities.py:4319-4407", "converter21/humdrum/humdrumwriter.py:381"]}
{"id": "C158", "title": "After the repair of durations the measures of all parts begin and end together", "statement": "Before a score is exported to Humdrum the measures of its parts are made equally long with invisible rests and put one after the other. Afterwards the measures with the same number have the same length in all parts and, if the parts began together, the same start, and each measure begins where the one before ends; a score with nothing to repair is unchanged. It should also hold for parts with different numbers of measures, fill every voice, and not change a repaired score (refuted).", "quantifier": "for all scores with equally many measures in all parts whose measures have voices or notes but not both", "why_tests_cant": "The lengths of measures depend on all parts and on the repairs before; the starts on all measures before.", "anchors": ["converter21/shared/m21utilities.py:4207-4480", "converter21/humdrum/humdrumwriter.py:381"]}
{"id": "C159", "title": "Chord symbols survive MEI", "statement": "Writing a chord symbol to MEI and reading the element back gives a chord symbol with the same root, bass and degrees, on the same staff and at the same time, printed with the same text and with the same label of its kind; a no-chord mark comes back as one, with its text.", "quantifier": "for all chord symbols, texts and labels", "why_tests_cant": "The text is free and the chord is any root, bass, kind and list of modifications; tests try a few common ones.", "anchors": ["converter21/mei/m21objectconvert.py:1889-1918", "converter21/mei/meireader.py:8073-8219", "converter21/shared/m21utilities.py:2936-2976"]}
{"id": "C160", "title": "Printed chord symbols can be turned into figures again", "statement": "Every printed chord text is turned into a music21 figure in finite time, and the figure made of the text printed for a figure is that figure.", "quantifier": "for all texts and figures", "why_tests_cant": "Termination and an inverse over unboundedly many texts cannot be settled by trying some; the failing texts begin with an accidental sign or contain flats in unusual places.", "anchors": ["converter21/shared/m21utilities.py:2920-2934", "converter21/shared/m21utilities.py:2978-3072", "converter21/mei/meireader.py:8188-8212"]}
{"id": "C161", "title": "Beams read as tremolos sound as written", "statement": "When a Humdrum file with the tandem interpretation *tremolo is imported, the notes of a beam that are replaced by a tremolo take up exactly the time they took, without gap or overlap; the note with slashes (or the pair of notes) stands for just the notes that were written, their number, pitches and duration; and beams with continued ties, ties inside, different durations or grace notes are left as written.", "quantifier": "all beams: any number of notes and chords, any pitches, durations and ties", "why_tests_cant": "the number of notes, their durations, the runs of equal pitches and the rests under the beam are unbounded; the arithmetic with logarithms goes wrong for rare totals only", "anchors": ["converter21/humdrum/humdrumfile.py:5265-5485", "converter21/humdrum/humdrumfile.py:8466-8490", "converter21/humdrum/humdrumfile.py:6000-6077"]}
{"id": "C162", "title": "Null tokens follow a note for as long as it lasts", "statement": "When a score is exported to Humdrum, in each voice every data line in which a note that began earlier is still sounding gets a null token and no other empty place does; no token is replaced; lines of grace notes get none; and the export ends with an error only if two notes of the voice overlap.", "quantifier": "all sequences of lines (notes, grace notes, interpretations, comments), times and durations, and all notes of a voice", "why_tests_cant": "the number of lines and the places of interpretations, grace notes and comments between the notes are unbounded", "anchors": ["converter21/humdrum/humgrid.py:453-572", "converter21/humdrum/humgrid.py:648-670"]}
{"id": "C163", "title": "Invisible rests end where the voice goes on", "statement": "When a voice of an exported score has a hole, the invisible rest that fills it lasts at least as long as the line and ends at the latest where the voice has something again.", "quantifier": "all scores: parts, staves, voices and lines", "why_tests_cant": "needs particular layouts of parts, staves and voices, with numbers of voices that change; no bound on any of them", "anchors": ["converter21/humdrum/humgrid.py:725-772"]}
{"id": "C164", "title": "Metadata survives Humdrum reference records", "statement": "If a score's metadata is written to a Humdrum file and read back, every name (title, composer, lyricist, free entries, performers, ...) has the same values, with the same languages and translation marks, in the same order, whatever numbers the records were given. Proved for texts without character references or written-out line breaks, languages in small letters, names with a reference key, the other reference keys that are neither dates nor roles, performers, suspected performers and publication editors without language, and free keys; refuted for regional languages, character references, equal translations, titles equal to the movement name, names without key and other roles.", "quantifier": "All metadata, of any length", "why_tests_cant": "The numbering of records depends on all earlier items, and the reader drops entries it thinks it has already; tests see a few files only.", "anchors": ["converter21/humdrum/humdrumwriter.py:563-840", "converter21/humdrum/m21convert.py:3353-3491", "converter21/humdrum/humdrumfile.py:894-960", "converter21/humdrum/humdrumfile.py:10768-10936", "converter21/shared/m21utilities.py:2483-2691"]}
{"id": "C165", "title": "Any metadata can be written to Humdrum", "statement": "Writing a score to Humdrum does not fail because of its metadata. It fails exactly if a text with a language stands under a name that has no reference key (and is not a raw or humdrum entry), or a contributor has no name.", "quantifier": "All metadata", "why_tests_cant": "Whether an exception is raised depends on the combination of name, kind of value and language.", "anchors": ["converter21/humdrum/humdrumwriter.py:563-840", "converter21/humdrum/m21convert.py:3382-3491"]}
{"id": "C166", "title": "Staff groups survive in the system decoration when they cover the score", "statement": "When every staff of a score is in some staff group, writing the score as Humdrum and reading it back gives the same groups: the same nesting, the same symbol (a line counts as no symbol), bar lines through the same groups, the same staves in each. When some staff is in no group, all groups are lost. A group around the only staff of a score is lost.", "quantifier": "all nestings of staff groups over all numbers of staves, all orders of staves in the file, all staff numbers", "why_tests_cant": "The text is read by matching brackets by position; the nestings, adjacent brackets and staff numbers of several digits are unbounded, and a test covers a few of them.", "anchors": ["converter21/humdrum/humdrumwriter.py:838-931", "converter21/humdrum/humdrumfile.py:11339-11582"]}
{"id": "C167", "title": "Staff groups made on reading a Humdrum file have the staves of the decoration", "statement": "Reading a Humdrum file that was written with a system decoration makes one staff group for each group of the decoration, outer ones first, each with exactly its staves in order, with the symbol and bar lines it had; each staff becomes one part; and there is one more group, without symbol, around everything unless a single group is. No assertion fails.", "quantifier": "all nestings of groups and single staves over all numbers of staves", "why_tests_cant": "The order of staves between and after subgroups and the set of staves still to be done depend on the nesting, which is unbounded.", "anchors": ["converter21/humdrum/humdrumfile.py:11707-11830", "converter21/humdrum/humdrumwriter.py:838-931"]}
{"id": "C168", "title": "Staff groups of Humdrum files without a system decoration", "statement": "In a Humdrum file without a system decoration each part of several staves becomes a staff group of just these staves, with a brace and bar lines through it for two staves and a bracket otherwise; parts of one staff get no group of their own; and no group appears around parts that had none.", "quantifier": "all lists of parts with all numbers of staves", "why_tests_cant": "The number of parts and of their staves is unbounded.", "anchors": ["converter21/humdrum/humdrumfile.py:11584-11651"]}
{"id": "C169", "title": "Numbers of groups and parts in a system decoration stand for their staves", "statement": "Where the system decoration of a Humdrum file names a group (gN) or a part (pN), exactly the staves of that group or part take its place; names of groups and parts that are not in the file vanish; a decoration that names only staves stays as it is, whatever groups and parts the file has.", "quantifier": "all tables of groups and parts, all decorations", "why_tests_cant": "Whether one number is the beginning of another depends on how many parts there are; the tests have few parts.", "anchors": ["converter21/humdrum/humdrumfile.py:11309-11337"]}
{"id": "C170", "title": "Whether music21 is recent enough", "statement": "The check of the music21 version says yes exactly when the installed version is not older than the one needed, where the first different element decides: numbers by size, and a later release (a final one after its alphas, alpha 11 after alpha 9) counts as newer. Without a version there is an error; a version that cannot be read means no.", "quantifier": "all versions of one to three numbers, with or without a text as fourth element", "why_tests_cant": "Versions are unbounded and the four blocks of the check end early in different ways; the tests run with one installed version.", "anchors": ["converter21/shared/m21utilities.py:1678-1733", "converter21/__init__.py:42-43"]}
