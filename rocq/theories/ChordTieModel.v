(** Model of the reading of ties that an MEI file puts on whole chords
    (mei/meireader.py). *)
From Coq Require Import ZArith.
From Verif Require Import PyStr.

(** [_tieFromAttr] (meireader.py:2210-2226). *)
Inductive kind := KStart | KContinue | KStop.
Definition tieFromAttr (s : str) : kind :=
  if char_in "m" s || (char_in "t" s && char_in "i" s) then KContinue
  else if char_in "i" s then KStart else KStop.

(** A note of a chord: its pitch (a number for each pitch) and its tie, if it has
    one of its own. *)
Definition cnote : Type := Z * option kind.
(** What a layer has that matters here: single notes with a pitch, and chords with
    the attribute [tie], if it is there. *)
Inductive item := INote (p : Z) | IChord (ns : list cnote) (tie : option str).
(** A <layer>: its number and its contents.  The reader also knows the staff, but
    does not use it here. *)
Record layer := mkL { l_staff : nat; l_n : str; l_items : list item }.

(** The chords read so far, and for each layer number the chord whose ties are
    pending: its place among the chords, its [tie], and [numMeasuresSearched]. *)
Record state := mkS { chords : list (list cnote); pend : str -> option (nat * str * nat) }.
Definition upd {A} (f : str -> A) (v : str) (x : A) : str -> A := fun w => if str_eqb w v then x else f w.
Fixpoint set_nth {A} (l : list A) (i : nat) (x : A) : list A :=
  match l, i with
  | [], _ => []
  | _ :: t, 0 => x :: t
  | y :: t, S j => y :: set_nth t j x
  end.

(** A single note ties the first note of the pending chord that has its pitch and
    no tie (meireader.py:4876-4884). *)
Fixpoint tieOne (p : Z) (k : kind) (ns : list cnote) : list cnote :=
  match ns with
  | [] => []
  | (q, None) :: t => if (q =? p)%Z then (q, Some k) :: t else (q, None) :: tieOne p k t
  | n :: t => n :: tieOne p k t
  end.
(** A chord ties all notes of the pending chord that it has too
    (meireader.py:5457-5463). *)
Definition tieAll (ps : list Z) (k : kind) (ns : list cnote) : list cnote :=
  map (fun n => match n with
                | (q, None) => if existsb (Z.eqb q) ps then (q, Some k) else n
                | _ => n
                end) ns.
Definition stillPending (ns : list cnote) : bool :=
  existsb (fun n => match snd n with None => true | Some _ => false end) ns.

Definition resolve (v : str) (f : kind -> list cnote -> list cnote) (st : state) : state :=
  match pend st v with
  | Some (c, ts, _) =>
      let ns := f (tieFromAttr ts) (nth c (chords st) []) in
      mkS (set_nth (chords st) c ns) (if stillPending ns then pend st else upd (pend st) v None)
  | None => st
  end.

(** [noteFromElement] (meireader.py:4864-4893) and [chordFromElement]
    (meireader.py:5450-5474, 5549-5567), for the layer number [v]. *)
Definition readItem (v : str) (st : state) (x : item) : state :=
  match x with
  | INote p => resolve v (tieOne p) st
  | IChord ns tie =>
      let st1 := resolve v (tieAll (map fst ns)) st in
      let st2 := mkS (chords st1 ++ [ns]) (pend st1) in
      match tie with
      | Some ts => if str_eqb ts (S_ "t") then st2
                   else mkS (chords st2) (upd (pend st2) v (Some (length (chords st1), ts, 1)))
      | None => st2
      end
  end.
(** [layerFromElement] (meireader.py:6371-6395). *)
Definition readLayer (st : state) (l : layer) : state :=
  let v := l_n l in
  let st1 :=
    match pend st v with
    | Some (c, ts, k) => mkS (chords st) (upd (pend st) v (if 2 <=? k then None else Some (c, ts, k + 1)))
    | None => st
    end in
  fold_left (readItem v) (l_items l) st1.
(** The layers of a file, in the order in which they are read: measure by measure,
    in each measure staff by staff. *)
Definition readLayers (ls : list layer) : list (list cnote) :=
  chords (fold_left readLayer ls (mkS [] (fun _ => None))).
