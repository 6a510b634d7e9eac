(** Null tokens in the grid of a score that is written to Humdrum: notes are extended over
    the slices they last, and holes are filled with invisible rests. Times are whole numbers
    of ticks. *)
From Coq Require Import List Arith ZArith Lia Bool.
Import ListNotations.
Local Open Scope Z_scope.

(** gridcommon.py:56-91, gridslice.py:235-336: slices of notes, of grace notes, other slices
    with spines (interpretations, layouts, local comments), and slices without. *)
Inductive kind := KNotes | KGrace | KOther | KNoSpine.
(** A token of a voice: a null token, or one with the duration of its recip (0: none). *)
Inductive tok := TNull | TTok (d : Z).
(** What the slices have in one voice of one staff of one part; a missing voice and a voice
    without token are the same here. *)
Record cell := Cell { c_kind : kind; c_ts : Z; c_dur : Z; c_tok : option tok }.

Definition set_dur (d : Z) (c : cell) : cell := Cell (c_kind c) (c_ts c) d (c_tok c).
Definition set_tok (t : tok) (c : cell) : cell := Cell (c_kind c) (c_ts c) (c_dur c) (Some t).
Definition spined (c : cell) : bool := match c_kind c with KNoSpine => false | _ => true end.

(** humgrid.py:517-535: the time of the next slice with spines. *)
Definition next_time (cur : Z) (c : cell) (r : list cell) : Z :=
  match find spined r with Some n => c_ts n | None => cur + c_dur c end.

(** humgrid.py:506-572: null tokens while time is left; None: an exception.  [last]: the
    duration that was given to the last slice (571-572). *)
Fixpoint fill (last : option Z) (next_ts left : Z) (l : list cell) : option (list cell) :=
  match l with
  | [] => Some []
  | c0 :: r =>
      let c := match last, r with Some d, [] => set_dur d c0 | _, _ => c0 end in
      if left <=? 0 then Some (c :: r)
      else match c_kind c with
      | KNoSpine => match fill None next_ts left r with Some r' => Some (c :: r') | None => None end
      | k =>
          let cur := next_ts in
          let next := next_time cur c r in
          let go c' left' := match fill (Some left') next left' r with Some r' => Some (c' :: r') | None => None end in
          match k with
          | KGrace => go (set_dur 0 c) left
          | KNotes =>
              match c_tok c with
              | Some (TTok _) => None
              | _ => go (set_tok TNull c) (left - (next - cur))
              end
          | _ => go (match c_tok c with None => set_tok TNull c | Some _ => c end) left
          end
      end
  end.

(** humgrid.py:453-504: of the note at the head; the list is not empty behind it. *)
Definition extend (c : cell) (r : list cell) : option (list cell) :=
  match c_kind c, c_tok c, r with
  | KNotes, Some (TTok d), n :: _ =>
      let left := d - (c_ts n - c_ts c) in
      if (d =? 0) || (left <=? 0) then Some r else fill None (c_ts n) left r
  | _, _, _ => Some r
  end.
(** humgrid.py:648-670: all notes of the voice, in the order of the slices. *)
Fixpoint extend_all (fuel : nat) (l : list cell) : option (list cell) :=
  match fuel, l with
  | S fuel', c :: r =>
      match extend c r with
      | None => None
      | Some r' => match extend_all fuel' r' with Some r'' => Some (c :: r'') | None => None end
      end
  | _, _ => Some l
  end.
Definition add_nulls (l : list cell) : option (list cell) := extend_all (List.length l) l.

(** ** Holes *)
(** The slices of notes: duration, and the voices of each staff of each part ([false]: there
    is none). *)
Record nslice := NSlice { n_dur : Z; n_parts : list (list (list bool)) }.

(** humgrid.py:743-767: the duration of the invisible rest for a hole in part [p], staff [s],
    voice [v], from that of its own slice on. *)
Fixpoint hole_time (p s v : nat) (dur : Z) (later : list nslice) : Z :=
  match later with
  | [] => dur
  | x :: r =>
      if (List.length (n_parts x) - 1 <=? p)%nat then hole_time p s v dur r
      else
        let pp := nth p (n_parts x) [] in
        if (List.length pp - 1 <=? s)%nat then hole_time p s v dur r
        else
          let sp := nth s pp [] in
          if (List.length sp - 1 <=? v)%nat then hole_time p s v (dur + n_dur x) r
          else dur
  end.
Definition hole (p s v : nat) (x : nslice) (later : list nslice) : Z := hole_time p s v (n_dur x) later.
