(** Styled texts of scores in MEI: how directions, dynamics and tempo texts are
    written, how they are read back, and how those that name a note by its id are
    read. *)
From Coq Require Import List Ascii String Arith NArith ZArith Lia Bool.
From Verif Require Import PyStr LayoutModel ClefModel MeiTextModel MeiIdsModel.
Import ListNotations.

(** music21's shapes around a text (those named in m21objectconvert.py:1667-1679;
    [Rectangle] stands for the others). *)
Inductive encl := Square | Circle | Oval | Diamond | Triangle | Rectangle | NoEnclosure.

(** A text style of music21, as far as it is written or read.  The font size is the
    text that [str] gives for it. *)
Record tstyle := TStyle {
  t_font : option str; t_weight : option str; t_size : option str; t_family : list str;
  t_justify : option str; t_color : option str; t_encl : option encl;
  t_align : option str; t_absY : option Z; t_hide : bool }.

(** A text expression, dynamic or tempo text: its text, placement and style, if it
    has one. *)
Record textobj := TextObj { o_text : str; o_place : option str; o_style : option tstyle }.

(** python's [bool] of a text or None, and None for an empty text. *)
Definition opt_str (o : option str) : str := match o with Some s => s | None => [] end.
Definition to_opt (s : str) : option str := match s with [] => None | _ => Some s end.
Definition attr_if (k v : str) : list (str * str) := match v with [] => [] | c :: s => [(k, c :: s)] end.
Definition is_some_str (o : option str) (s : str) : bool := match o with Some x => str_eqb x s | None => false end.

(** ** Writing *)

(** m21objectconvert.py:1974-1996, [m21FontStyleAndWeightToMei]; [] for None. *)
Definition m21FontStyleAndWeightToMei (font weight : option str) : str * str :=
  let '(s, w) :=
    if is_some_str font (S_ "normal") then (S_ "normal", [])
    else if is_some_str font (S_ "italic") then (S_ "italic", [])
    else if is_some_str font (S_ "bold") then ([], S_ "bold")
    else if is_some_str font (S_ "bolditalic") then (S_ "italic", S_ "bold")
    else ([], []) in
  (s, match opt_str weight with [] => w | _ => opt_str weight end).

(** m21objectconvert.py:1667-1679, [m21EnclosureToMeiRend]. *)
Definition m21EnclosureToMeiRend (e : encl) : str :=
  match e with
  | Square => S_ "box"
  | Circle | Oval => S_ "circle"
  | Diamond => S_ "dbox"
  | Triangle => S_ "tbox"
  | Rectangle | NoEnclosure => []
  end.

(** m21objectconvert.py:1603-1655: the attributes of the `rend` element. *)
Definition rend_attrs (s : tstyle) : list (str * str) :=
  let '(fs, fw) := m21FontStyleAndWeightToMei (t_font s) (t_weight s) in
  attr_if (S_ "fontstyle") fs ++ attr_if (S_ "fontweight") fw ++ attr_if (S_ "fontsize") (opt_str (t_size s))
  ++ attr_if (S_ "fontfam") (hd [] (t_family s)) ++ attr_if (S_ "halign") (opt_str (t_justify s))
  ++ attr_if (S_ "color") (opt_str (t_color s))
  ++ attr_if (S_ "rend") (match t_encl s with Some e => m21EnclosureToMeiRend e | None => [] end).

(** m21objectconvert.py:1593-1664, [emitStyledTextElement].  [lay1] and [lay2] are the
    white space that meiwriter.py:83 puts before and after the `rend` element, [tail]
    that after the element. *)
Definition emitStyledTextElement (lay1 lay2 tail : str) (text : str) (style : option tstyle) (tag : str) (attr : list (str * str)) : xml :=
  match style with
  | None => El tag attr text [] tail
  | Some s => match rend_attrs s with
              | [] => El tag attr text [] tail
              | ra => El tag attr lay1 [El (S_ "rend") ra text [] lay2] tail
              end
  end.

(** m21objectconvert.py:158-198, [m21PlacementToMei], for an object that is no slur and
    has a [placement]; [] for None. *)
Definition m21PlacementToMei (o : textobj) : str :=
  let align := match o_style o with Some s => opt_str (t_align s) | None => [] end in
  let p := match o_place o with
           | Some p => p
           | None => match o_style o with
                     | Some s => match t_absY s with
                                 | Some y => if (0 <? y)%Z then S_ "above" else if (y <? 0)%Z then S_ "below" else []
                                 | None => []
                                 end
                     | None => []
                     end
           end in
  if str_eqb p (S_ "below") && str_eqb align (S_ "middle") then S_ "between"
  else if mem p [S_ "above"; S_ "below"] then p else [].

(** m21objectconvert.py:109-155, [_addStylisticAttributes], for a text. *)
Definition stylisticAttributes (o : textobj) : list (str * str) :=
  attr_if (S_ "place") (m21PlacementToMei o)
  ++ match o_style o with
     | Some s => (if t_hide s then [(S_ "visible", S_ "false")] else []) ++ attr_if (S_ "color") (opt_str (t_color s))
     | None => []
     end.

(** m21objectconvert.py:1682-1762, [convertPostStaveStreamElement], for texts; [attr] are
    the attributes of every element of its kind (id, staff, time stamp). *)
Definition write_text (lay1 lay2 tail tag : str) (attr : list (str * str)) (o : textobj) : xml :=
  emitStyledTextElement lay1 lay2 tail (o_text o) (o_style o) tag (attr ++ stylisticAttributes o).

(** ** Reading *)

(** m21objectconvert.py:1939-1971, [meiFontStyleAndWeightToM21FontStyle]. *)
Definition meiFontStyleAndWeightToM21FontStyle (fs fw : str) : str :=
  let fs := match fs with [] => S_ "normal" | _ => fs end in
  let fw := match fw with [] => S_ "normal" | _ => fw end in
  let fs := if str_eqb fs (S_ "oblique") then S_ "italic" else fs in
  let fs := if mem fs [S_ "normal"; S_ "italic"] then fs else S_ "normal" in
  let fw := if mem fw [S_ "normal"; S_ "bold"] then fw else S_ "normal" in
  if str_eqb fs (S_ "normal") then (if str_eqb fw (S_ "normal") then S_ "normal" else S_ "bold")
  else (if str_eqb fw (S_ "normal") then S_ "italic" else S_ "bolditalic").

Definition rend_to_encl (r : str) : option encl :=
  if str_eqb r (S_ "box") then Some Square else if str_eqb r (S_ "circle") then Some Circle
  else if str_eqb r (S_ "dbox") then Some Diamond else if str_eqb r (S_ "tbox") then Some Triangle else None.

Section Read.
(** [html.unescape]; glyphs; and music21's setters of the font size (as text), of the
    families and of the justification (None: it raises). *)
Context (html : str -> str) (glyph_num glyph_name : str -> str)
        (set_size : str -> str) (set_family : str -> list str) (set_justify : str -> option str).

(** meireader.py:8292-8350, [_textExpressionFromPieces]; [] for None or ''. *)
Definition textExpressionFromPieces (text fs fw size family color justify enclosure place : str) : option textobj :=
  match (match justify with [] => Some None | c :: s => option_map Some (set_justify (c :: s)) end) with
  | None => None
  | Some j =>
      let font := match fs, fw with [], [] => None | _, _ => Some (meiFontStyleAndWeightToM21FontStyle fs fw) end in
      let between := str_eqb place (S_ "between") in
      Some (TextObj text
        (if str_eqb place (S_ "above") then Some (S_ "above") else if str_eqb place (S_ "below") || between then Some (S_ "below") else None)
        (Some (TStyle font None
           (match size with [] => None | _ => Some (set_size size) end)
           (match family with [] => [] | _ => set_family family end)
           j (to_opt color) (rend_to_encl enclosure)
           (if between then Some (S_ "middle") else None) None false)))
  end.

(** meireader.py:8251-8262 and 1862-1875: the text with what encloses it. *)
Definition enclosed (enclose text : str) : str :=
  if str_eqb enclose (S_ "paren") then S_ "( " ++ text ++ S_ " )"
  else if str_eqb enclose (S_ "brack") then S_ "[ " ++ text ++ S_ " ]" else text.

Definition sget (k : string) (d : list (str * str)) : str := opt_str (d_get (S_ k) d).

(** meireader.py:8246-8287, [dirFromElement], for an element with a time stamp. *)
Definition dirFromElement (e : xml) : option textobj :=
  let (t, d) := text_of glyph_num glyph_name [] e in
  textExpressionFromPieces (enclosed (x_get (S_ "enclose") (x_attrs e)) (strip (html t)))
    (sget "fontStyle" d) (sget "fontWeight" d) (sget "fontSize" d) (sget "fontFamily" d)
    (sget "color" d) (sget "justify" d) (sget "enclosure" d) (x_get (S_ "place") (x_attrs e)).

(** meireader.py:8024-8071, [_metronomeMarkFromTextExpressionAndMidiBPMStr]: text,
    placement and style of the metronome mark. *)
Definition metronomeMarkFromText (o : textobj) : textobj :=
  TextObj (o_text o) (match o_place o with None => Some (S_ "above") | p => p end)
    (match o_style o with
     | Some s => Some (match t_weight s, t_font s with
                       | None, None => TStyle (Some (S_ "bold")) None (t_size s) (t_family s) (t_justify s) (t_color s) (t_encl s) (t_align s) (t_absY s) (t_hide s)
                       | _, _ => s
                       end)
     | None => Some (TStyle (Some (S_ "bold")) None None [] None None None None None false)
     end).

(** ** Texts that name a note by its id *)

Inductive tkind := KDir | KDynam | KTempo.

(** meireader.py:1830-1844. *)
Definition kind_tag (k : tkind) : str := match k with KDir => S_ "dir" | KDynam => S_ "dynam" | KTempo => S_ "tempo" end.
Definition pp_name (k : tkind) : str := match k with KDir => S_ "m21Dir" | KDynam => S_ "m21Dynam" | KTempo => S_ "m21Dynam" end.

(** meireader.py:1846-1903: what one element puts on the note that it names. *)
Definition pp_one (k : tkind) (e : xml) : option (str * list (str * str)) :=
  let a := x_attrs e in
  if match k with KDir => str_eqb (x_get (S_ "type") a) (S_ "fingering") | _ => false end then None
  else match removeOctothorpe (x_get (S_ "startid") a) with
  | [] => None
  | id =>
      let (t, d) := text_of glyph_num glyph_name [] e in
      match strip (html t) with
      | [] => None
      | text =>
          let n := pp_name k in
          Some (id,
            [(n, enclosed (x_get (S_ "enclose") a) text)]
            ++ attr_if (n ++ S_ "Place") (x_get (S_ "place") a)
            ++ attr_if (n ++ S_ "Staff") (x_get (S_ "staff") a)
            ++ attr_if (n ++ S_ "MidiBPM") (match k with KTempo => x_get (S_ "midi.bpm") a | _ => [] end)
            ++ attr_if (n ++ S_ "FontStyle") (sget "fontStyle" d)
            ++ attr_if (n ++ S_ "FontWeight") (sget "fontWeight" d)
            ++ attr_if (n ++ S_ "FontFamily") (sget "fontFamily" d)
            ++ attr_if (n ++ S_ "Justify") (sget "justify" d)
            ++ attr_if (n ++ S_ "Enclosure") (sget "enclosure" d))
      end
  end.

(** meireader.py:1817-1905, [_ppDirsDynamsTempos]: first the directions, then the
    dynamics, then the tempos. *)
Definition ppDirsDynamsTempos (dirs dynams tempos : list xml) : list (str * list (str * str)) :=
  let all (k : tkind) (l : list xml) := flat_map (fun e => match pp_one k e with Some x => [x] | None => [] end) l in
  all KDir dirs ++ all KDynam dynams ++ all KTempo tempos.

(** meireader.py:1908-1946, [_ppConclude], for a note that has no attributes of these
    names of its own: what was put on it. *)
Definition attrs_of (id : str) (m : list (str * list (str * str))) : list (str * str) :=
  flat_map (fun x => if str_eqb (fst x) id then snd x else []) m.

(** meireader.py:2442-2507, [addDirsDynamsTempos]: the texts of a note. *)
Definition text_with (p : str) (a : list (str * str)) : option textobj :=
  let g (s : str) := opt_str (d_get (p ++ s) a) in
  textExpressionFromPieces (g []) (g (S_ "FontStyle")) (g (S_ "FontWeight")) (g (S_ "FontSize")) (g (S_ "FontFamily")) (g (S_ "Color")) (g (S_ "Justify")) (g (S_ "Enclosure")) (g (S_ "Place")).
Definition addDirsDynamsTempos (a : list (str * str)) : option (list (tkind * textobj)) :=
  let one (k : tkind) (p : str) : option (list (tkind * textobj)) :=
    match opt_str (d_get p a) with
    | [] => Some []
    | _ => match text_with p a with
           | None => None
           | Some o => Some [(k, match k with KTempo => metronomeMarkFromText o | _ => o end)]
           end
    end in
  match one KDir (S_ "m21Dir"), one KDynam (S_ "m21Dynam"), one KTempo (S_ "m21Tempo") with
  | Some x, Some y, Some z => Some (x ++ y ++ z)
  | _, _, _ => None
  end.

(** The texts that a note gets. *)
Definition texts_of_note (dirs dynams tempos : list xml) (id : str) : option (list (tkind * textobj)) :=
  addDirsDynamsTempos (attrs_of id (ppDirsDynamsTempos dirs dynams tempos)).
End Read.
