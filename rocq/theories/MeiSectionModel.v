(** How the contents of a <score> of an MEI file become the list of things of one part
    (/repo/converter21/mei/meireader.py, [MeiReader.sectionScoreCore] 8897-9272,
    [sectionFromElement] 9290-9339, [scoreFromElement] 9341-9420, and the use of a waiting
    page or system break in [staffFromElement] 6771-6810).

    The python keeps one list per part; the lists of different parts do not touch each other,
    so the model follows one part, whose @n is an argument [n].  A measure is followed by an
    identifier, the numbers of the <staff>s in it and whether its @right is "rptboth" (that is
    what makes measureFromElement return a repeat for the left side of the next measure); what
    else is in a measure is not modelled here. *)
From Coq Require Import List Ascii String NArith Bool Arith.
From Verif Require Import PyStr.
Import ListNotations.

(** What a <scoreDef> or <staffDef> makes: a clef, key signature, time signature, instrument,
    with the name of its class ([classes[0]]). *)
Record obj := mkObj { class : str; isInstrument : bool; label : nat }.

(** The children of <score>, <section> and <ending>.  A <scoreDef> is given by the result of
    scoreDefFromElement: the objects for the top part, those for all parts, and for some parts
    objects of their own.  A break is given by whether its @type says "original" (then
    pageBreakFromElement 5752-5780 and systemBreakFromElement 5782-5798 return None). *)
Inductive elem :=
| Measure (id : nat) (staves : list str) (rptboth : bool)
| ScoreDef (top all : list obj) (own : list (str * list obj))
| StaffDef (n : option str) (objs : list obj)
| Section (ending : option (option str)) (body : list elem)
| Pb (original : bool)
| Sb (original : bool)
| Other.

Inductive break := PageBreak | SystemBreak.

(** What is put into the list of a part. *)
Inductive item :=
| IMeasure (id : nat) (objs : list obj) (left : bool) (brk : option break)
| IInstrument (o : obj)
| IBracket (num : option str) (measures : list nat).

(** meireader.py 9054-9056, 9080-9082: 'Key' counts as 'KeySignature'. *)
Definition typeStr (o : obj) : str :=
  if str_eqb (class o) (S_ "Key") then S_ "KeySignature" else class o.

(** meireader.py 9047-9067: a dict from type to object; an object of a type that is there
    already takes its place. *)
Fixpoint dict_set (o : obj) (d : list obj) : list obj :=
  match d with
  | [] => [o]
  | x :: r => if str_eqb (typeStr x) (typeStr o) then o :: r else x :: dict_set o r
  end.

Definition defaults (all : list obj) : list obj :=
  fold_left (fun d o => dict_set o d) all [].

Fixpoint own_of (n : str) (own : list (str * list obj)) : option (list obj) :=
  match own with
  | [] => None
  | (k, v) :: r => if str_eqb k n then Some v else own_of n r
  end.

(** meireader.py 9040-9109: what a <scoreDef> gives to part [n]. *)
Definition scoreDef_for (topN n : str) (top all : list obj) (own : list (str * list obj))
  : list obj :=
  (if str_eqb topN n then top else [])
    ++ match own_of n own with
       | Some l =>
           l ++ filter (fun d => negb (existsb (fun o => str_eqb (typeStr o) (typeStr d)) l))
                       (defaults all)
       | None => defaults all
       end.

(** meireader.py 9111-9127: a <staffDef> is for the part with its @n. *)
Definition staffDef_for (n : str) (k : option str) (objs : list obj) : list obj :=
  match k with
  | Some k => if str_eqb k n then objs else []
  | None => []
  end.

(** What sectionScoreCore has while it works: [parsed[n]], [inNextThing[n]], the attributes
    [pendingInNextThing[n]] and [nextBreak] of the reader, [nextMeasureLeft] and
    [haveSeenMeasure]. *)
Record state := mkState {
  parsed : list item;
  inNext : list obj;
  pending : list obj;
  nextBreak : option break;
  nextLeft : bool;
  seen : bool }.

(** staffFromElement 6783-6786, 6808-6810: the measure of the top part takes the break, if
    the measure has a <staff> for the top part. *)
Definition takes_break (topN : str) (staves : list str) : bool :=
  existsb (fun k => str_eqb k topN) staves.

(** meireader.py 8994-9010 for one part. *)
Definition read_measure (topN n : str) (id : nat) (staves : list str) (rpt : bool) (s : state)
  : state :=
  let brk := if takes_break topN staves then nextBreak s else None in
  mkState (parsed s ++ [IMeasure id (inNext s) (nextLeft s)
                          (if str_eqb topN n then brk else None)])
          []
          (pending s)
          (if takes_break topN staves then None else nextBreak s)
          rpt
          true.

(** meireader.py 9151-9168: the first Instrument. *)
Fixpoint take_instrument (l : list obj) : option (obj * list obj) :=
  match l with
  | [] => None
  | o :: r =>
      if isInstrument o then Some (o, r)
      else match take_instrument r with
           | Some (i, r') => Some (i, o :: r')
           | None => None
           end
  end.

(** meireader.py 9170-9178: the first Stream of the list gets the objects. *)
Fixpoint insert_first (objs : list obj) (l : list item) : list item :=
  match l with
  | [] => []
  | IMeasure id os lf b :: r => IMeasure id (os ++ objs) lf b :: r
  | x :: r => x :: insert_first objs r
  end.

(** meireader.py 9148-9179. *)
Definition give (objs : list obj) (l : list item) : list item :=
  match objs with
  | [] => l
  | _ =>
      match take_instrument objs with
      | Some (i, rest) => insert_first rest (IInstrument i :: l)
      | None => insert_first objs l
      end
  end.

Fixpoint measure_ids (l : list item) : list nat :=
  match l with
  | [] => []
  | IMeasure id _ _ _ :: r => id :: measure_ids r
  | _ :: r => measure_ids r
  end.

(** meireader.py 9181-9209: in a section or ending, an <ending> also makes a RepeatBracket;
    in a <score> it does not. *)
Definition close (inSection : bool) (ending : option (option str)) (l : list item) : list item :=
  match ending with
  | Some num => if inSection then l ++ [IBracket num (measure_ids l)] else l
  | None => l
  end.

(** meireader.py 9222-9254: breaks count only after a measure of the same section; a page
    break takes the place of a system break. *)
Definition read_pb (original : bool) (s : state) : state :=
  if seen s && negb original
  then mkState (parsed s) (inNext s) (pending s) (Some PageBreak) (nextLeft s) (seen s)
  else s.

Definition read_sb (original : bool) (s : state) : state :=
  if seen s && negb original
  then mkState (parsed s) (inNext s) (pending s)
         (match nextBreak s with Some PageBreak => Some PageBreak | _ => Some SystemBreak end)
         (nextLeft s) (seen s)
  else s.

Definition wait_for (objs : list obj) (s : state) : state :=
  mkState (parsed s) (inNext s ++ objs) (pending s) (nextBreak s) (nextLeft s) (seen s).

(** One child of a <score> ([inSection] false), <section> or <ending>, 8990-9268; for a nested
    section, sectionScoreCore begins with what is pending (8968-8975) and leaves what it has
    not used (9270). *)
Fixpoint read_elem (topN n : str) (inSection : bool) (e : elem) (s : state) {struct e} : state :=
  match e with
  | Measure id staves rpt =>
      if inSection then read_measure topN n id staves rpt s else s
  | ScoreDef top all own => wait_for (scoreDef_for topN n top all own) s
  | StaffDef k objs => wait_for (staffDef_for n k objs) s
  | Section ending body =>
      let s1 := fold_left (fun a b => read_elem topN n true b a) body
                  (mkState [] (pending s) [] (nextBreak s) (nextLeft s) false) in
      mkState (parsed s ++ close inSection ending (give (inNext s) (parsed s1)))
              []
              (inNext s1)
              (nextBreak s1)
              (nextLeft s1)
              (seen s)
  | Pb o => read_pb o s
  | Sb o => read_sb o s
  | Other => s
  end.

Definition read_elems (topN n : str) (inSection : bool) (l : list elem) (s : state) : state :=
  fold_left (fun a b => read_elem topN n inSection b a) l s.

Definition start : state := mkState [] [] [] None false false.

(** scoreFromElement 9381-9412: the things of part [n]. *)
Definition read_score (topN n : str) (l : list elem) : list item :=
  parsed (read_elems topN n false l start).
