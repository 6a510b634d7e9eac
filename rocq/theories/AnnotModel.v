(** Beams and tuplets found for export to MEI (converter21/mei/meiscore.py 440-500, 625-778). *)
From Verif Require Import PyStr.

(** Beams of music21: type, and direction if partial. *)
Inductive beam_mark := BStart | BContinue | BStop | BPartialLeft | BPartialRight | BPartial.
(** Types of tuplets. *)
Inductive tuplet_mark := TStart | TStop | TStartStop | TNone.

(** An object of a voice, as far as needed: is it a note or chord, but no chord symbol; the numbers and marks
    of its beams; the highest beam number possible for its duration; is it a note, chord or
    rest, but no chord symbol; is it a grace note; its tuplets. *)
Record gnote := GNote { g_notrest : bool; g_beams : list (nat * beam_mark); g_max : nat; g_general : bool; g_grace : bool; g_tuplets : list tuplet_mark }.

(** m21utilities.py:4483-4503, [getNonIgnoredBeams]. *)
Definition getNonIgnoredBeams (g : gnote) : list beam_mark := map snd (filter (fun b => Nat.leb (fst b) (g_max g)) (g_beams g)).

(** meiscore.py:642-654. *)
Definition stopsBeam (b : beam_mark) : bool := match b with BStop | BPartialLeft => true | _ => false end.
Definition startsBeam (b : beam_mark) : bool := match b with BStart | BPartialRight => true | _ => false end.
(** meiscore.py:656-670. *)
Definition allStop (l : list beam_mark) : bool := match l with [] => false | _ => forallb stopsBeam l end.
Definition allStart (l : list beam_mark) : bool := match l with [] => false | _ => forallb startsBeam l end.

(** A beam spanner: its number (the position of the note that it was made for), its voice (kept for
    reference), its notes. *)
Record bspan := BSpan { bs_id : nat; bs_voice : nat; bs_notes : list nat }.
(** The spanners of the score, and for each voice the spanners to be added to, the last one first. *)
Record bstate := BState { b_spanners : list bspan; b_current : nat -> list nat }.

Definition bs_add (id i : nat) (s : bspan) : bspan := if Nat.eqb (bs_id s) id then BSpan (bs_id s) (bs_voice s) (bs_notes s ++ [i]) else s.
Definition set_current (v : nat) (l : list nat) (f : nat -> list nat) : nat -> list nat := fun w => if Nat.eqb w v then l else f w.

(** meiscore.py:629-732, [annotateBeams], without breaks of secondary beams.  [i]: position of the object in the
    score; [v]: the part and voice. *)
Definition annotateBeams (st : bstate) (i v : nat) (g : gnote) : bstate :=
  if negb (g_notrest g) then st
  else
    let beams := getNonIgnoredBeams g in
    match beams with
    | [] => st
    | _ =>
        let st1 := if allStart beams || match b_current st v with [] => true | _ => false end
                   then BState (b_spanners st ++ [BSpan i v []]) (set_current v (i :: b_current st v) (b_current st))
                   else st in
        match b_current st1 v with
        | [] => st1
        | id :: rest =>
            let sp := map (bs_add id i) (b_spanners st1) in
            if allStop beams then BState sp (set_current v rest (b_current st1))
            else BState sp (b_current st1)
        end
    end.

(** meiscore.py:463-475: all objects of all voices, one after the other, each with its voice. *)
Fixpoint beams_from (st : bstate) (l : list (nat * nat * gnote)) : bstate :=
  match l with [] => st | (i, v, g) :: r => beams_from (annotateBeams st i v g) r end.
Definition beams_of (l : list (nat * nat * gnote)) : list bspan := b_spanners (beams_from (BState [] (fun _ => [])) l).

(** meiscore.py:744-752. *)
Definition stopsTuplet (t : tuplet_mark) : bool := match t with TStop | TStartStop => true | _ => false end.
Definition startsTuplet (t : tuplet_mark) : bool := match t with TStart | TStartStop => true | _ => false end.

(** Tuplet spanners, by number; the numbers of the current ones of the part, the last one first. *)
Record tstate := TState { t_spanners : list (list nat); t_current : list nat }.

Definition open_tuplet (st : tstate) : tstate := TState (t_spanners st ++ [[]]) (length (t_spanners st) :: t_current st).
Fixpoint add_at (k : nat) (ids : list nat) (i : nat) (l : list (list nat)) : list (list nat) :=
  match l with [] => [] | e :: r => (if existsb (Nat.eqb k) ids then e ++ [i] else e) :: add_at (S k) ids i r end.
Definition add_note (i : nat) (st : tstate) : tstate := TState (add_at 0 (t_current st) i (t_spanners st)) (t_current st).
Definition close_tuplet (st : tstate) : tstate := TState (t_spanners st) (tl (t_current st)).

(** meiscore.py:734-777, [annotateTuplets]. *)
Definition annotateTuplets (st : tstate) (i : nat) (g : gnote) : tstate :=
  if negb (g_general g) then st
  else if (match g_tuplets g with [] => true | _ => false end) && negb (match t_current st with [] => true | _ => false end) then
    if g_grace g then st else close_tuplet st
  else
    let st1 := fold_left (fun s t => if startsTuplet t || (match t with TNone => true | _ => false end) && (match t_current s with [] => true | _ => false end) then open_tuplet s else s) (g_tuplets g) st in
    let st2 := add_note i st1 in
    fold_left (fun s t => if stopsTuplet t then close_tuplet s else s) (g_tuplets g) st2.

(** meiscore.py:474-483: one voice of a measure; tuplets end with it. *)
Fixpoint tuplets_from (st : tstate) (l : list (nat * gnote)) : tstate :=
  match l with [] => st | (i, g) :: r => tuplets_from (annotateTuplets st i g) r end.
Definition tuplets_of_voice (sp : list (list nat)) (l : list (nat * gnote)) : list (list nat) := t_spanners (tuplets_from (TState sp []) l).
(** All voices of all measures. *)
Definition tuplets_of (vs : list (list (nat * gnote))) : list (list nat) := fold_left tuplets_of_voice vs [].
