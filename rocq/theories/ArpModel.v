(** Model of arpeggios: marks in the tokens of a Humdrum line (humdrum/m21convert.py,
    humdrum/humdrumfile.py) and <arpeg> elements in MEI files (mei/m21objectconvert.py,
    mei/meireader.py). *)
From Coq Require Import Arith.
From Verif Require Import PyStr BarModel MeiIdsModel.

(** * Humdrum *)

(** ** Writing *)

(** Expressions of a note or chord (m21utilities.py:990-1015: spanners first, then
    the others): single marks, spanners with the measures of what they span, and
    all others with the text that is written for them. *)
Inductive expr := EMark | ESpanner (measures : list nat) | EOther (s : str).
(** [_allSpannedGeneralNotesInSameMeasure] (m21convert.py:2568-2577).  Each staff
    has its own measures. *)
Definition inSameMeasure (ms : list nat) : bool :=
  match ms with [] => true | m :: r => forallb (Nat.eqb m) r end.
(** [_getHumdrumStringAndLayoutsFromM21Expressions] (m21convert.py:2580-2650), its text. *)
Definition expr_text (e : expr) : str :=
  match e with
  | EMark => S_ ":"
  | ESpanner ms => if inSameMeasure ms then S_ ":" else S_ "::"
  | EOther s => s
  end.
Definition exprs_text (es : list expr) : str := flat_map expr_text es.

(** ** Reading *)

(** A token of a line: its number, whether its spine is **kern, its track, whether
    it is a rest (null tokens are what they stand for), its text, and whether a
    note or chord is made of it. *)
Record tok := mkTok { t_id : nat; t_kern : bool; t_track : nat; t_rest : bool; t_text : str; t_note : bool }.
(** [isRest and isInvisible] (humdrumtoken.py:1161-1190, 1276-1285). *)
Definition isHidden (t : tok) : bool := t_rest t && (t_kern t && contains (S_ "yy") (t_text t)).
Definition colon (t : tok) : bool := contains (S_ ":") (t_text t).
Definition double (t : tok) : bool := contains (S_ "::") (t_text t).

(** [_isLeftmostSystemArpeggioToken] (humdrumfile.py:6567-6589); the tokens to the
    left, nearest first. *)
Fixpoint leftmostSystem (left : list tok) : bool :=
  match left with
  | [] => true
  | t :: l => if negb (t_kern t) then leftmostSystem l
              else if isHidden t then leftmostSystem l
              else if colon t then false else leftmostSystem l
  end.
(** [_getSystemArpeggioTokens] (humdrumfile.py:6591-6616) without the first token. *)
Fixpoint systemTokens (right : list tok) : list tok :=
  match right with
  | [] => []
  | t :: r => if negb (t_kern t) then systemTokens r
              else if isHidden t then systemTokens r
              else if double t then t :: systemTokens r else []
  end.
(** [_isLeftmostStaffArpeggioToken] (humdrumfile.py:6618-6649). *)
Fixpoint leftmostStaff (track : nat) (left : list tok) : bool :=
  match left with
  | [] => true
  | t :: l => if negb (Nat.eqb (t_track t) track) then true
              else if negb (t_kern t) then leftmostStaff track l
              else if isHidden t then leftmostStaff track l
              else if colon t then false else leftmostStaff track l
  end.
(** [_getStaffArpeggioTokens] (humdrumfile.py:6651-6685) without the first token. *)
Fixpoint staffTokens (track : nat) (right : list tok) : list tok :=
  match right with
  | [] => []
  | t :: r => if negb (Nat.eqb (t_track t) track) then []
              else if negb (t_kern t) then staffTokens track r
              else if isHidden t then staffTokens track r
              else if colon t then t :: staffTokens track r else []
  end.

(** What is made: a mark at one note or chord, or a spanner; always of the type
    normal. *)
Inductive arp := Mark (i : nat) | Spanner (is : list nat).
(** [_addArpeggio] (humdrumfile.py:6534-6565). *)
Definition addArpeggio (left : list tok) (t : tok) (right : list tok) : list arp :=
  let tokens :=
    if double t then if leftmostSystem left then t :: systemTokens right else []
    else if colon t then if leftmostStaff (t_track t) left then t :: staffTokens (t_track t) right else []
    else [] in
  match tokens with
  | [] => []
  | [x] => [Mark (t_id x)]
  | _ => [Spanner (map t_id tokens)]
  end.
(** For each note and chord of the line (humdrumfile.py:6238, 6513). *)
Fixpoint read_from (left ts : list tok) : list arp :=
  match ts with
  | [] => []
  | t :: r => (if t_note t then addArpeggio left t r else []) ++ read_from (t :: left) r
  end.
Definition read_line (ts : list tok) : list arp := read_from [] ts.

(** * MEI *)

(** An <arpeg> element: the texts of its attributes, empty if absent. *)
Record arpeg := mkArpeg { a_plist : str; a_start : str; a_end : str; a_arrow : str; a_order : str }.

(** ** Writing *)
(** [_ARPEGGIO_TYPE_TO_ARROW_AND_ORDER] (m21objectconvert.py:1051-1056, 1288-1290). *)
Definition arrow_and_order (ty : str) : str * str :=
  if str_eqb ty (S_ "normal") then ([], [])
  else if str_eqb ty (S_ "up") then (S_ "true", S_ "up")
  else if str_eqb ty (S_ "down") then (S_ "true", S_ "down")
  else if str_eqb ty (S_ "non-arpeggio") then (S_ "false", S_ "nonarp")
  else ([], []).
(** Arpeggios of a score: a mark at the note with an id, a spanner with the ids of
    its notes. *)
Inductive marp := MMark (ty : str) (i : str) | MSpanner (ty : str) (is : list str).
(** [arpeggioMarkToMei] (m21objectconvert.py:1296-1315); [postStavesSpannerToMei]
    with [_fillInStandardPostStavesAttributes] (m21objectconvert.py:1000-1048,
    1145-1149); [fillInArpeggioAttributes] (m21objectconvert.py:1273-1294).  The ids
    of the list are written without number sign. *)
Definition write_arp (a : marp) : arpeg :=
  match a with
  | MMark ty i => mkArpeg [] ("#"%char :: i) [] (fst (arrow_and_order ty)) (snd (arrow_and_order ty))
  | MSpanner ty is =>
      mkArpeg (join (S_ " ") is) ("#"%char :: hd [] is)
        (if str_eqb (last is []) (hd [] is) then [] else "#"%char :: last is [])
        (fst (arrow_and_order ty)) (snd (arrow_and_order ty))
  end.

(** ** Reading *)
(** [_ARPEGGIO_ARROW_AND_ORDER_TO_ARPEGGIOTYPE] (meireader.py:1554-1570, 1627-1630). *)
Definition type_of (arrow order : str) : str :=
  let is := str_eqb order in
  if str_eqb arrow [] || str_eqb arrow (S_ "false") then
    if is (S_ "down") then S_ "down" else if is (S_ "nonarp") then S_ "non-arpeggio" else S_ "normal"
  else if str_eqb arrow (S_ "true") then
    if is [] then S_ "up" else if is (S_ "up") then S_ "up" else if is (S_ "down") then S_ "down"
    else if is (S_ "nonarp") then S_ "non-arpeggio" else S_ "normal"
  else S_ "normal".
(** [list.remove]: the first occurrence. *)
Fixpoint remove_first (x : str) (l : list str) : list str :=
  match l with [] => [] | y :: r => if str_eqb x y then r else y :: remove_first x r end.
Definition plist_of (e : arpeg) : list str :=
  let l := match a_plist e with [] => [] | p => split_char " " p end in
  let l := match a_start e with [] => l | i => i :: remove_first i l end in
  match a_end e with [] => l | i => remove_first i l ++ [i] end.
(** [_ppArpeggios] (meireader.py:1572-1653); unique ids of spanners are their numbers
    among the elements. *)
Definition ppArpeg (k : N) (e : arpeg) (m : attrs) : attrs :=
  match plist_of e with
  | [] => m
  | [i] => setAttr m (removeOctothorpe i) (S_ "m21ArpeggioMarkType") (type_of (a_arrow e) (a_order e))
  | l => fold_left (fun m i => setAttr m (removeOctothorpe i) (S_ "m21ArpeggioMarkSpanner") (show_N k)) l m
  end.
Fixpoint ppArpeggios (k : N) (es : list arpeg) (m : attrs) : attrs :=
  match es with [] => m | e :: es' => ppArpeggios (N.succ k) es' (ppArpeg k e m) end.
(** [addArpeggio] (meireader.py:2508-2533): marks of a note, and which of the notes,
    in the order of the file, are put into a spanner. *)
Definition marks_at (m : attrs) (i : str) : list str :=
  match m i (S_ "m21ArpeggioMarkType") with Some [] => [] | Some ty => [ty] | None => [] end.
Definition spanned (m : attrs) (notes : list str) (k : N) : list str :=
  filter (fun i => match m i (S_ "m21ArpeggioMarkSpanner") with Some s => str_eqb s (show_N k) | None => false end) notes.
Fixpoint spanners_from (m : attrs) (notes : list str) (k : N) (es : list arpeg) : list (str * list str) :=
  match es with
  | [] => []
  | e :: es' =>
      match plist_of e with
      | _ :: _ :: _ => [(type_of (a_arrow e) (a_order e), spanned m notes k)]
      | _ => []
      end ++ spanners_from m notes (N.succ k) es'
  end.
(** The arpeggios of a file with the given notes: spanners with type and notes, and
    for each note its marks. *)
Definition read_arps (notes : list str) (es : list arpeg) : list (str * list str) * list (list str) :=
  let m := ppArpeggios 0 es noAttrs in
  (spanners_from m notes 0 es, map (marks_at m) notes).
