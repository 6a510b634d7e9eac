(** Barlines in MEI: the [left] and [right] attributes of measures, out
    (converter21/mei/m21objectconvert.py, meimeasure.py) and in (meireader.py). *)
From Verif Require Import PyStr.

(** music21's types of barlines, and repeats with their direction. *)
Inductive bar_type := Regular | HeavyLight | Heavy | Dotted | Dashed | Double | Final | Invisible | Tick | Short | HeavyHeavy.
Inductive barline := Bar (t : bar_type) | RepeatStart | RepeatEnd.

(** A measure of a staff: its left and right barline. *)
Definition staff_measure : Type := option barline * option barline.

(** ** Writing *)

(** [_M21_BARLINE_TYPE_OR_DIRECTION_TO_MEI_BARLINE_TYPE] (m21objectconvert.py:2025-2036);
    [None]: no such key, an exception. *)
Definition bar_code (b : barline) : option str :=
  match b with
  | Bar Regular => Some []
  | Bar HeavyLight => Some []
  | Bar Heavy => Some (S_ "heavy")
  | Bar Dotted => Some (S_ "dotted")
  | Bar Dashed => Some (S_ "dashed")
  | Bar Double => Some (S_ "dbl")
  | Bar Final => Some (S_ "end")
  | Bar Invisible => Some (S_ "invis")
  | RepeatStart => Some (S_ "rptstart")
  | RepeatEnd => Some (S_ "rptend")
  | Bar Tick | Bar Short | Bar HeavyHeavy => None
  end.

(** m21objectconvert.py:2038-2072, [m21BarlineToMeiMeasureBarlineAttr]. *)
Definition bar_attr (b : option barline) : option str :=
  match b with None => Some [] | Some b => bar_code b end.

Definition is_ (s : str) (x : str) : bool := str_eqb s x.

(** m21objectconvert.py:2129-2184, [meiMeasureBarlineAttrCombine]. *)
Definition combine (a b : str) : str :=
  if str_eqb a b then a
  else if is_ a [] then b
  else if is_ b [] then a
  else if is_ a (S_ "invis") || is_ b (S_ "invis") then S_ "invis"
  else if is_ a (S_ "rptstart") && is_ b (S_ "rptend") then S_ "rptboth"
  else if is_ a (S_ "rptend") && is_ b (S_ "rptstart") then S_ "rptboth"
  else if is_ a (S_ "rptboth") then a
  else if is_ b (S_ "rptboth") then b
  else if starts_with (S_ "rpt") a then a
  else if starts_with (S_ "rpt") b then b
  else if is_ a (S_ "end") then a
  else if is_ b (S_ "end") then b
  else if is_ a (S_ "dbl") then a
  else if is_ b (S_ "dbl") then b
  else if is_ a (S_ "dashed") then a
  else if is_ b (S_ "dashed") then b
  else if is_ a (S_ "dotted") then a
  else if is_ b (S_ "dotted") then b
  else [].

(** m21objectconvert.py:2074-2090, [m21BarlinesToMeiMeasureBarlineAttr]. *)
Definition bars_attr (a b : option barline) : option str :=
  match bar_attr a, bar_attr b with
  | Some x, Some y => Some (combine x y)
  | _, _ => None
  end.

(** The attributes [left] and [right] of a measure; the empty string stands for no attribute. *)
Definition measure_attrs : Type := str * str.

(** meimeasure.py:209-247, [_fillInMeasureAttributes]: only the first staff counts.  [first]: is
    it the first measure of the score; [next]: the next measure, if there is one. *)
Definition write_measure (first : bool) (m : list staff_measure) (next : option (list staff_measure)) : option measure_attrs :=
  match m with
  | [] => Some ([], [])
  | (l, r) :: _ =>
      let next_left := match next with Some ((l', _) :: _) => l' | _ => None end in
      match (if first then bar_attr l else Some []), bars_attr r next_left with
      | Some x, Some y => Some (x, y)
      | _, _ => None
      end
  end.

Fixpoint write_measures (first : bool) (ms : list (list staff_measure)) : option (list measure_attrs) :=
  match ms with
  | [] => Some []
  | m :: r =>
      match write_measure first m (nth_error r 0), write_measures false r with
      | Some a, Some b => Some (a :: b)
      | _, _ => None
      end
  end.
Definition write_bars (ms : list (list staff_measure)) : option (list measure_attrs) := write_measures true ms.

(** ** Reading *)

(** [_BAR_ATTR_DICT] (meireader.py:662-669); an unknown value gives [None], which music21 takes
    for a regular barline. *)
Definition bar_of_attr (s : str) : bar_type :=
  if is_ s (S_ "dashed") then Dashed
  else if is_ s (S_ "dotted") then Dotted
  else if is_ s (S_ "dbl") then Double
  else if is_ s (S_ "end") then Final
  else if is_ s (S_ "invis") then Invisible
  else Regular.

(** meireader.py:2179-2205, [_barlineFromAttr]: one barline, or two for [rptboth]. *)
Definition barlineFromAttr (s : str) : barline * option barline :=
  if starts_with (S_ "rpt") s then
    if is_ s (S_ "rptboth") then (RepeatEnd, Some RepeatStart)
    else if is_ s (S_ "rptend") then (RepeatEnd, None)
    else (RepeatStart, None)
  else (Bar (bar_of_attr s), None).

(** meireader.py:6865-6913, [_makeBarlines]: left and right barline of every staff, and the left
    barline of the next measure.  (A missing attribute is read as [single].) *)
Definition makeBarlines (a : measure_attrs) : option barline * option barline * option barline :=
  let lft := match fst a with
              | [] => None
              | s => if is_ s (S_ "single") then None
                     else match barlineFromAttr s with (_, Some b) => Some b | (b, None) => Some b end
              end in
  match barlineFromAttr (snd a) with
  | (b, Some n) => (lft, Some b, Some n)
  | (RepeatStart, None) => (lft, Some (Bar Regular), Some RepeatStart)
  | (b, None) => (lft, Some b, None)
  end.

(** What the reader sees: measures, and sections and endings with measures in them. *)
Inductive element := EMeasure (a : measure_attrs) | ESection (l : list element).

(** meireader.py:8897-9272, [sectionFromElement], as far as barlines go: a left barline given by
    the measure before (9016-9027) replaces the measure's own, also across the borders of sections
    and endings (9149-9154).  [n] staves.  Result: the measures, and the left barline of the
    measure to come. *)
Fixpoint read_element (n : nat) (pending : option barline) (e : element) : list (list staff_measure) * option barline :=
  match e with
  | EMeasure a =>
      let '(lft, rgt, next) := makeBarlines a in
      ([repeat (match pending with Some b => Some b | None => lft end, rgt) n], next)
  | ESection l =>
      (fix go p l := match l with
                     | [] => ([], p)
                     | e :: r => let '(x, p1) := read_element n p e in
                                 let '(y, p2) := go p1 r in (x ++ y, p2)
                     end) pending l
  end.
Definition read_bars (n : nat) (e : element) : list (list staff_measure) := fst (read_element n None e).
