(** Metronome marks in MEI: how the text and the number are written
    (converter21/mei/m21objectconvert.py) and read (converter21/mei/meireader.py).
    Numbers are exact; texts are as in MeiTextModel.v. *)
From Coq Require Import List Ascii String Arith NArith ZArith QArith Lia Bool.
From Verif Require Import PyStr LayoutModel ClefModel MeiTextModel MeiIdsModel MeiStyleModel.
Import ListNotations.
Local Close Scope Q_scope.

(** A metronome mark of music21.  [m_numberImplicit] also stands for music21's third
    value None, which python takes for false; [m_type], [m_dots] and [m_ql] are type,
    dots and quarterLength of the referent. *)
Record mmark := MMark {
  m_text : option str; m_textImplicit : bool;
  m_number : option Q; m_numberImplicit : bool; m_sounding : option Q;
  m_type : str; m_dots : nat; m_ql : Q;
  m_place : option str; m_style : option tstyle }.

(** python's [int] of a number. *)
Definition py_int_of (q : Q) : Z := Z.quot (Qnum q) (Zpos (Qden q)).

(** m21objectconvert.py:1998-2011. *)
Definition note_head_names : list (str * str) :=
  [ (S_ "breve", S_ "metNoteDoubleWhole"); (S_ "whole", S_ "metNoteWhole"); (S_ "half", S_ "metNoteHalfUp");
    (S_ "quarter", S_ "metNoteQuarterUp"); (S_ "eighth", S_ "metNote8thUp"); (S_ "16th", S_ "metNote16thUp");
    (S_ "32nd", S_ "metNote32thUp"); (S_ "64th", S_ "metNote64thUp"); (S_ "128th", S_ "metNote128thUp");
    (S_ "256th", S_ "metNote256thUp"); (S_ "512th", S_ "metNote512thUp"); (S_ "1024th", S_ "metNote1024thUp") ].
(** The names that sharedconstants.py:544-557 has characters for (of those that begin
    with met). *)
Definition smufl_names : list str :=
  [ S_ "metNoteDoubleWhole"; S_ "metNoteDoubleWholeSquare"; S_ "metNoteWhole"; S_ "metNoteHalfUp"; S_ "metNoteQuarterUp";
    S_ "metNote8thUp"; S_ "metNote16thUp"; S_ "metNote32ndUp"; S_ "metNote64thUp"; S_ "metNote128thUp";
    S_ "metNote256thUp"; S_ "metNote512thUp"; S_ "metNote1024thUp"; S_ "metAugmentationDot" ].

Section Write.
(** The character of a name (sharedconstants.py:544-557), and [str] of a number. *)
Context (smufl : str -> str) (show : Q -> str).

(** SMUFL_NAME_TO_UNICODE_CHAR[name]; None is a KeyError. *)
Definition smufl_char (name : str) : option str := if mem name smufl_names then Some (smufl name) else None.

(** m21objectconvert.py:2012-2025, [_getNoteHeadSMUFLUnicodeForReferent]. *)
Definition note_head (type : str) (dots : nat) : option str :=
  let name := match assoc_str type note_head_names with Some n => n | None => S_ "metNoteQuarterUp" end in
  match smufl_char name with
  | None => None
  | Some h =>
      match dots with
      | O => Some h
      | _ => match smufl_char (S_ "metAugmentationDot") with
             | None => None
             | Some d => Some (h ++ List.concat (repeat d dots))
             end
      end
  end.

(** m21objectconvert.py:1922-1936, [_convertMetronomeMarkToMixedText]: the text of the
    element and that of its `rend` element, if it gets one; None: it raises. *)
Definition mixed_text (m : mmark) : option (str * option str) :=
  match m_text m with
  | None => Some ([], None)
  | Some t =>
      let words := if m_textImplicit m then [] else t in
      match m_numberImplicit m, m_number m with
      | false, Some n =>
          match note_head (m_type m) (m_dots m) with
          | None => None
          | Some h => Some (words ++ S_ " ", Some (h ++ S_ " = " ++ show_Z (py_int_of n)))
          end
      | _, _ => Some (words, None)
      end
  end.

(** What meiwriter.py:83 ([indent]) makes of a text before a child: one that is nothing
    but white space gives way to [lay]. *)
Definition indented (lay t : str) : str := if forallb is_space t then lay else t.

(** m21objectconvert.py:1749-1779, for a metronome mark (1754-1761 for those with an
    implicit number, 1763-1779 for others).  None: it raises; Some None: no element is
    written.  [lay1] and [lay2] as in [emitStyledTextElement]. *)
Definition write_tempo (lay1 lay2 tail : str) (attr : list (str * str)) (m : mmark) : option (option xml) :=
  let text := opt_str (m_text m) in
  let a := attr ++ stylisticAttributes (TextObj text (m_place m) (m_style m)) in
  if m_numberImplicit m then Some (Some (emitStyledTextElement lay1 lay2 tail text (m_style m) (S_ "tempo") a))
  else match (match m_number m with Some n => Some n | None => m_sounding m end) with
       | None => Some None
       | Some n =>
           let a := a ++ [(S_ "midi.bpm", show (n * m_ql m)%Q)] in
           match mixed_text m with
           | None => None
           | Some (t, None) => Some (Some (El (S_ "tempo") a t [] tail))
           | Some (t, Some r) => Some (Some (El (S_ "tempo") a (indented lay1 t) [El (S_ "rend") [(S_ "fontfam", S_ "smufl")] r [] lay2] tail))
           end
       end.
End Write.

Section Read.
Context (html glyph_num glyph_name set_size : str -> str) (set_family : str -> list str) (set_justify : str -> option str).
(** python's [float] of a text; None: ValueError (also for nan and infinities). *)
Context (float_of : str -> option Q).

(** meireader.py:8024-8071, [_metronomeMarkFromTextExpressionAndMidiBPMStr]; the referent
    is a quarter. *)
Definition midi_bpm (s : str) : option Z :=
  match s with [] => None | _ => option_map py_int_of (float_of s) end.
Definition mark_of (o : textobj) (bpm : str) : mmark :=
  let o := metronomeMarkFromText o in
  MMark (Some (o_text o)) false (option_map inject_Z (midi_bpm bpm)) true None (S_ "quarter") 0 1%Q (o_place o) (o_style o).

(** What the reader meets: score definitions and tempo elements. *)
Inductive event := EScoreDef (e : xml) | ETempo (e : xml).

Definition has_attr (k : str) (e : xml) : bool := match assoc_str k (x_attrs e) with Some _ => true | None => false end.

(** meireader.py:7988-8022 ([tempoFromElement]) with the tests of [dirFromElement]
    (8226-8243), and 3319-3323 of [scoreDefFromElement]: the marks, and the number kept for
    the next tempo.  A tempo that names a note makes no mark here: it has been put on the note
    before (1905, MeiStyleModel.v).  None: it raises. *)
Definition read_event (pending : str) (ev : event) : option (str * list mmark) :=
  match ev with
  | EScoreDef e => Some (match x_get (S_ "midi.bpm") (x_attrs e) with [] => pending | s => s end, [])
  | ETempo e =>
      if match pp_one html glyph_num glyph_name KTempo e with Some _ => true | None => false end
         || str_eqb (x_get (S_ "type") (x_attrs e)) (S_ "fingering") || negb (has_attr (S_ "tstamp") e) then Some (pending, [])
      else match dirFromElement html glyph_num glyph_name set_size set_family set_justify e with
           | None => None
           | Some o => Some ([], [mark_of o (match x_get (S_ "midi.bpm") (x_attrs e) with [] => pending | s => s end)])
           end
  end.
Fixpoint read_events (pending : str) (l : list event) : option (list mmark) :=
  match l with
  | [] => Some []
  | ev :: r =>
      match read_event pending ev with
      | None => None
      | Some (p, ms) => match read_events p r with None => None | Some ms' => Some (ms ++ ms') end
      end
  end.
End Read.
