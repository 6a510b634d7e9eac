(** Lyrics in MEI: how the verses of a note are written and read back. *)
From Coq Require Import List Ascii String Arith NArith ZArith Lia Bool.
From Verif Require Import PyStr LayoutModel ClefModel DateModel MeiTextModel MeiStyleModel.
Import ListNotations.

Inductive syllabic := Begin | Middle | End | Single | Composite.

(** A lyric object of music21: its text, its place in the word, its style and the
    placement in the style, and what joins it to the syllable before it on the note. *)
Record lyric := Lyric { l_text : str; l_pos : option syllabic; l_style : option tstyle; l_place : option str; l_elision : str }.
(** A verse of a note: number, identifier, the lyric object itself and its components. *)
Record verse := Verse { v_num : Z; v_ident : option str; v_own : lyric; v_comps : list lyric }.

(** ** Writing *)

(** m21objectconvert.py:425-436. *)
Definition wordpos_of (p : option syllabic) : str :=
  match p with Some Begin => S_ "i" | Some Middle => S_ "m" | Some End => S_ "t" | _ => [] end.

(** m21objectconvert.py:438-457, [m21SyllableToMei]; a style has its placement with it. *)
Definition m21SyllableToMei (lay1 lay2 tail : str) (l : lyric) : xml :=
  emitStyledTextElement lay1 lay2 tail (l_text l) (l_style l) (S_ "syl") (attr_if (S_ "wordpos") (wordpos_of (l_pos l))).

(** m21objectconvert.py:399-423, [m21LyricsToMei], for one verse.  A lyric object has no
    placement of its own: that of the style counts. *)
Definition verseToMei (lay0 lay1 lay2 tail : str) (v : verse) : xml :=
  let o := TextObj [] (match l_style (v_own v) with Some _ => l_place (v_own v) | None => None end) (l_style (v_own v)) in
  El (S_ "verse")
     ((if (v_num v =? 0)%Z then [] else [(S_ "n", show_Z (v_num v))]) ++ stylisticAttributes o)
     lay0
     (match opt_str (v_ident v) with [] => [] | s => [El (S_ "label") [] s [] tail] end
      ++ map (m21SyllableToMei lay1 lay2 tail) (match v_comps v with [] => [v_own v] | cs => cs end))
     tail.

(** ** Reading *)

Section Read.
(** [html.unescape]; glyphs; music21's setters of families and justification (None: it
    raises); and what music21 makes of a raw text that may have hyphens at its ends. *)
Context (html : str -> str) (glyph_num glyph_name : str -> str)
        (set_family : str -> list str) (set_justify : str -> option str) (raw : str -> str * syllabic).

(** meireader.py:4362-4423, [sylFromElement]. *)
Definition sylFromElement (e : xml) : option lyric :=
  let (t, d) := text_of glyph_num glyph_name [] e in
  let text := strip (html t) in
  let text := match text with [c; x] => if Ascii.eqb c nbsp then [x] else text | _ => text end in
  let '(text, pos) :=
    match assoc_str (S_ "wordpos") (x_attrs e) with
    | None => let (t, p) := raw text in (t, Some p)
    | Some w => (text, if str_eqb w (S_ "i") then Some Begin else if str_eqb w (S_ "m") then Some Middle else if str_eqb w (S_ "t") then Some End else None)
    end in
  let font := match d_get (S_ "fontStyle") d, d_get (S_ "fontWeight") d with
              | None, None => None
              | s, w => Some (meiFontStyleAndWeightToM21FontStyle (opt_str s) (opt_str w))
              end in
  let fam := match d_get (S_ "fontFamily") d with None => [] | Some f => set_family f end in
  match (match d_get (S_ "justify") d with None => Some None | Some j => option_map Some (set_justify j) end) with
  | None => None
  | Some j => Some (Lyric text pos
      (match font, fam, j with None, [], None => None | _, _, _ => Some (TStyle font None None fam j None None None None false) end) None (S_ " "))
  end.

(** meireader.py:4515-4535, [stringFromElement]. *)
Fixpoint text_iter (top : bool) (e : xml) : str :=
  match e with
  | El _ _ t ss tl =>
      let ok (s : str) := match s with [] => [] | c :: _ => if Ascii.eqb c newline then [] else s end in
      ok t ++ flat_map (text_iter false) ss ++ (if top then [] else ok tl)
  end.

(** The sub-elements of a verse: the last label and the syllables (meireader.py:4467-4493;
    editorial elements are not modelled).  None if music21 raises. *)
Fixpoint verse_subs (ss : list xml) : option (option str * list lyric) :=
  match ss with
  | [] => Some (None, [])
  | s :: r =>
      match verse_subs r with
      | None => None
      | Some (lb, ls) =>
          if str_eqb (x_name s) (S_ "label") then Some (match lb with None => Some (text_iter true s) | _ => lb end, ls)
          else if str_eqb (x_name s) (S_ "syl") then match sylFromElement s with None => None | Some l => Some (lb, l :: ls) end
          else Some (lb, ls)
      end
  end.

(** meireader.py:4426-4513, [verseFromElement].  The placement goes into the style. *)
Definition placed_in (p : str) (l : lyric) : lyric :=
  if mem p [S_ "above"; S_ "below"]
  then Lyric (l_text l) (l_pos l) (Some (match l_style l with Some s => s | None => TStyle None None None [] None None None None None false end)) (Some p) (l_elision l)
  else l.
Definition verseFromElement (e : xml) : option verse :=
  match verse_subs (x_subs e) with
  | None => None
  | Some (lb, ls) =>
      let label := match lb with Some s => Some s | None => assoc_str (S_ "label") (x_attrs e) end in
      let num := match assoc_str (S_ "n") (x_attrs e) with Some s => match py_int s with Some z => z | None => 1%Z end | None => 1%Z end in
      let place := x_get (S_ "place") (x_attrs e) in
      match ls with
      | [l] => Some (Verse num label (placed_in place l) [])
      | _ => Some (Verse num label (placed_in place (Lyric [] None None None (S_ " "))) ls)
      end
  end.
End Read.
