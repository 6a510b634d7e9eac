(** Model of the contents of an exported MEI layer: objects, spaces that fill gaps,
    and changes of the staff (mei/meilayer.py, makeRootElement). *)
From Coq Require Import List QArith.
Import ListNotations.
From Verif Require Import DurationModel.
Local Close Scope Q_scope.

(** An object of the voice that belongs in the layer: its offset in the measure,
    its duration, and whether there is a converter for it
    (m21objectconvert.py:47-62). *)
Record lobj := mkO { o_id : nat; o_off : Q; o_dur : Q; o_known : bool }.
(** A clef, key or time signature of the measure, with its offset. *)
Record change := mkC { c_id : nat; c_off : Q }.

Inductive litem :=
| Space (d : Q)              (** an invisible rest *)
| Obj (o : lobj)
| Full (c : change)          (** the change, written in full *)
| Same (c : change).         (** a reference to it *)

(** Invisible rests for a gap (meilayer.py:180-187, 198-207). *)
Definition spaces (gap : Q) : list litem :=
  match getPowerOfTwoQuarterLengthsWithDotsAddingTo gap with
  | Some ds => map Space ds
  | None => []
  end.

(** Writing a change: [em] are the changes that have the attribute [mei_emitted]
    (meilayer.py:222-236). *)
Definition put_change (em : list nat) (c : change) : litem * list nat :=
  if existsb (Nat.eqb (c_id c)) em then (Same c, em) else (Full c, c_id c :: em).

(** The changes before an object at [off] (meilayer.py:213-242); the changes that
    are left are returned too. *)
Fixpoint changes_before (off : Q) (em : list nat) (cs : list change) : list litem * list nat * list change :=
  match cs with
  | [] => ([], em, [])
  | c :: cs' =>
      if negb (Qle_bool (c_off c) off) then ([], em, cs)
      else if Qeq_bool (c_off c) off then
        let '(it, em1) := put_change em c in
        let '(its, em2, r) := changes_before off em1 cs' in (it :: its, em2, r)
      else changes_before off em cs'
  end.

(** The objects in order (meilayer.py:190-266).  Elements that enclose the objects
    are in LayerModel. *)
Fixpoint put_objs (last : Q) (em : list nat) (cs : list change) (os : list lobj)
    : list litem * Q * list nat * list change :=
  match os with
  | [] => ([], last, em, cs)
  | o :: os' =>
      let gap := negb (Qle_bool (o_off o) last) in
      let sp := if gap then spaces (o_off o - last)%Q else [] in
      let last1 := if gap then o_off o else last in
      let '(ch, em1, cs1) := changes_before (o_off o) em cs in
      let last2 := if o_known o then (o_off o + o_dur o)%Q else last1 in
      let '(its, l, em2, cs2) := put_objs last2 em1 cs1 os' in
      (sp ++ ch ++ (if o_known o then [Obj o] else []) ++ its, l, em2, cs2)
  end.

(** The changes at the end of the layer (meilayer.py:268-293). *)
Fixpoint changes_at_end (last : Q) (em : list nat) (cs : list change) : list litem * list nat :=
  match cs with
  | [] => ([], em)
  | c :: cs' =>
      if Qeq_bool (c_off c) last then
        let '(it, em1) := put_change em c in
        let '(its, em2) := changes_at_end last em1 cs' in (it :: its, em2)
      else changes_at_end last em cs'
  end.

(** A layer: [voiceOffset] is the offset of the voice in the measure, 0 when the
    measure itself is the voice. *)
Definition layer_end (voiceOffset : Q) (os : list lobj) : Q :=
  let '(_, l, _, _) := put_objs (if Qeq_bool voiceOffset 0 then 0%Q else voiceOffset) [] [] os in l.
Definition makeLayer (voiceOffset : Q) (em : list nat) (cs : list change) (os : list lobj) : list litem * list nat :=
  let z := Qeq_bool voiceOffset 0 in
  let '(its, l, em1, cs1) := put_objs (if z then 0%Q else voiceOffset) em cs os in
  let '(fin, em2) := changes_at_end l em1 cs1 in
  ((if z then [] else spaces voiceOffset) ++ its ++ fin, em2).
(** The layers of a staff, one after another (meistaff.py:139-141). *)
Fixpoint makeLayers (em : list nat) (cs : list change) (ls : list (Q * list lobj)) : list (list litem) :=
  match ls with
  | [] => []
  | (v, os) :: ls' => let '(its, em1) := makeLayer v em cs os in its :: makeLayers em1 cs ls'
  end.

(** How a layer is read (meireader.py:6420-6435): each object is appended after
    the ones before, so it begins where their durations end. *)
Definition item_dur (i : litem) : Q := match i with Space d => d | Obj o => o_dur o | _ => 0%Q end.
Fixpoint positions (p : Q) (its : list litem) : list (litem * Q) :=
  match its with [] => [] | i :: r => (i, p) :: positions (p + item_dur i)%Q r end.
