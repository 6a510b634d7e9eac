(** Property theorems C05-C09: pitch texts. *)
From Verif Require Import PyStr PitchModel PitchProofs ClefModel ClefProofs.
Local Open Scope Z_scope.

(** C05.  Full statement: a written pitch is read back unchanged.  It is false
    below octave 0: the importer drops such notes. *)
Theorem C05_pitch_roundtrip_refuted :
  exists s octave alter,
    import_pitch (kernPitchFromM21Pitch s octave alter Hidden) = None.
Proof. exists StC, (-1), 0. vm_compute. reflexivity. Qed.
Print Assumptions C05_pitch_roundtrip_refuted.

(** Every step, octave from 0 up, alteration and display, inside any token text
    without further pitch characters.  Missing: octaves below 0. *)
Theorem C05_pitch_roundtrip_partial : forall pre s octave alter disp suf,
  inert pre = true -> inert suf = true -> display_inert disp = true ->
  (disp = NoAccidental -> alter = 0) -> 0 <= octave ->
  import_pitch (pre ++ kernPitchFromM21Pitch s octave alter disp ++ suf)
  = Some (pitch_name s alter, octave).
Proof. exact pitch_roundtrip. Qed.
Print Assumptions C05_pitch_roundtrip_partial.

Example C05_nonvacuous :
  inert (S_ "(4.") = true /\ inert (S_ "L/") = true /\ display_inert (Editorial (S_ "i")) = true /\
  string_of_list_ascii (S_ "(4." ++ kernPitchFromM21Pitch StA 6 (-2) (Editorial (S_ "i")) ++ S_ "L/")
  = "(4.aaa--iL/"%string.
Proof. repeat split; vm_compute; reflexivity. Qed.

(** C06.  Pitches with at most two sharps or flats have distinct base-40 numbers. *)
Theorem C06_base40_injective : forall s1 o1 a1 s2 o2 a2 pre1 suf1 pre2 suf2,
  inert pre1 = true -> inert suf1 = true -> inert pre2 = true -> inert suf2 = true ->
  -2 <= a1 <= 2 -> -2 <= a2 <= 2 ->
  kernToBase40 (note_text pre1 s1 o1 a1 suf1) = kernToBase40 (note_text pre2 s2 o2 a2 suf2) ->
  s1 = s2 /\ o1 = o2 /\ a1 = a2.
Proof. exact base40_injective. Qed.
Print Assumptions C06_base40_injective.

(** ... and base 40 spells them back, in every octave from 0 up to the
    converter's own limit. *)
Theorem C06_base40_roundtrip : forall s o a,
  -2 <= a <= 2 -> 0 <= o <= 16 ->
  base40ToKern (kernToBase40 (note_text [] s o a [])) = Some (note_text [] s o a []).
Proof. exact kern_base40_kern. Qed.
Print Assumptions C06_base40_roundtrip.

Example C06_nonvacuous :
  inert (S_ "4") = true /\ kernToBase40 (note_text (S_ "4") StE 5 (-2) []) = 212
  /\ string_of_list_ascii (note_text (S_ "4") StE 5 (-2) []) = "4ee--"%string.
Proof. repeat split; vm_compute; reflexivity. Qed.

(** Outside the stated range the numbers do collide: a triple sharp is another
    pitch's double flat. *)
Theorem C06_triple_sharp_collides :
  exists s1 o1 a1 s2 o2 a2, (s1, a1) <> (s2, a2) /\ a1 = 3 /\ a2 = -2 /\
    kernToBase40 (note_text [] s1 o1 a1 []) = kernToBase40 (note_text [] s2 o2 a2 []).
Proof. exists StE, 4, 3, StF, 4, (-2). repeat split; try discriminate; vm_compute; reflexivity. Qed.
Print Assumptions C06_triple_sharp_collides.

(** C07.  MIDI key number of any pitch text. *)
Theorem C07_midi_number : forall pre s octave alter suf,
  inert pre = true -> inert suf = true ->
  kernToMidiNoteNumber (note_text pre s octave alter suf)
  = 12 * (octave + 1) + step_semitone s + alter.
Proof. exact midi_law. Qed.
Print Assumptions C07_midi_number.

Example C07_nonvacuous : kernToMidiNoteNumber (S_ "8.cL") = 60
  /\ S_ "8.cL" = note_text (S_ "8.") StC 4 0 (S_ "L").
Proof. split; vm_compute; reflexivity. Qed.

(** C08.  Staff positions round-trip over the whole range the converter accepts. *)
Theorem C08_base7_roundtrip : forall b,
  0 <= b < 119 -> exists k, base7ToKern b = Some k /\ kernToBase7 k = b.
Proof. exact base7_roundtrip. Qed.
Print Assumptions C08_base7_roundtrip.

Theorem C08_kern_roundtrip : forall s o,
  0 <= o <= 16 ->
  base7ToKern (kernToBase7 (note_text [] s o 0 [])) = Some (note_text [] s o 0 []).
Proof. exact kern_base7_kern. Qed.
Print Assumptions C08_kern_roundtrip.

Example C08_nonvacuous : base7ToKern 34 = Some (S_ "b") /\ base7ToKern 35 = Some (S_ "cc").
Proof. split; vm_compute; reflexivity. Qed.

(** Clef baselines are staff positions: the bottom line implied by the clef's
    sign, line and octave marks, for every clef of the notation. *)
Theorem C08_clef_baseline : forall (star : bool) s o l,
  kernClefToBaseline ((if star then S_ "*" else []) ++ S_ "clef" ++ sign_char s :: octave_marks o ++ [line_char l])
  = sign_position s + 7 * octave_shift o - 2 * (line_number l - 1).
Proof. exact clef_baseline. Qed.
Print Assumptions C08_clef_baseline.

(** Any text at all gives the error value or a position that is spelled back. *)
Theorem C08_clef_baseline_roundtrip : forall text,
  kernClefToBaseline text = -1000 \/
  exists k, base7ToKern (kernClefToBaseline text) = Some k /\ kernToBase7 k = kernClefToBaseline text.
Proof.
  intro text. destruct (clef_baseline_range text) as [H|H]; [left; exact H|right].
  exact (base7_roundtrip _ H).
Qed.
Print Assumptions C08_clef_baseline_roundtrip.

Example C08_clef_nonvacuous : kernClefToBaseline (S_ "*clefGv2") = 23
  /\ base7ToKern 23 = Some (S_ "E").
Proof. split; vm_compute; reflexivity. Qed.

(** Below the range the position is not recovered. *)
Theorem C08_negative_positions_refuted :
  exists b k, b < 0 /\ base7ToKern b = Some k /\ kernToBase7 k <> b.
Proof. exists (-2). eexists. split; [lia|split; [vm_compute; reflexivity|vm_compute; discriminate]]. Qed.
Print Assumptions C08_negative_positions_refuted.

(** C09.  Transposition texts round-trip, for all integers. *)
Theorem C09_transposition_roundtrip : forall d c,
  transToDiatonicChromatic (diatonicChromaticToTrans d c) = Some (d, c).
Proof. exact trans_roundtrip. Qed.
Print Assumptions C09_transposition_roundtrip.

(** The same through the generic-interval convention used with music21
    (generic 0 does not exist; a generic -1 is written as a unison). *)
Theorem C09_interval_roundtrip : forall g c,
  g <> 0 -> g <> -1 -> (g, c) <> (1, 0) ->
  intervalFromTranspose (transposeStringFromInterval g c) = Some (g, c).
Proof. exact transpose_interval_roundtrip. Qed.
Print Assumptions C09_interval_roundtrip.

Example C09_nonvacuous :
  string_of_list_ascii (transposeStringFromInterval (-2) (-2)) = "d-1c-2"%string /\
  (-2 <> 0 /\ -2 <> -1 /\ ((-2, -2) <> (1, 0))).
Proof. repeat split; try discriminate; vm_compute; reflexivity. Qed.
