(** Repair of bad durations before every export to Humdrum:
    converter21/shared/m21utilities.py, [fixupBadDurations] (4207-4458, called from
    humdrumwriter.py:381), [fixupComplexHiddenRests] (4461-4480) and
    [splitComplexRestDurations] (1432-1469).

    Simplifications: times are whole numbers of ticks, [quarter] of them in a quarter note
    (some such number exists for every score of fractions; what opFrac does to fractions with
    huge denominators is left out).  Notes, chords and rests are modelled, chord symbols, clefs
    and the like are not: they are taken not to reach beyond the last note.  Voices begin with
    their measure and parts with the score.  Lengths of measures and voices are where their
    contents end (what music21 computes; 4431 sets the length of a measure to what its
    contents then have, if it has not both voices and notes of its own). *)
From Coq Require Import List Arith ZArith Lia Bool.
Import ListNotations.
Local Open Scope Z_scope.

(** A note, chord or rest: which one it is, start in its measure, length, whether it is a
    rest, whether it is hidden, and the length it looks like if that is another one
    ([duration.linked] is false). *)
Record note := Note { n_id : option nat; n_off : Z; n_len : Z; n_rest : bool; n_hidden : bool; n_looks : option Z }.
(** A measure: start, length of a bar of the time signature at its start, its own notes, its
    voices. *)
Record measure := Measure { m_off : Z; m_ts : option Z; m_notes : list note; m_voices : list (list note) }.
Definition part := list measure.
Definition score := list part.

(** [highestTime]. *)
Definition n_end (n : note) : Z := n_off n + n_len n.
Definition highest (l : list note) : Z := fold_right (fun n h => Z.max (n_end n) h) 0 l.
Definition measure_len (m : measure) : Z := fold_right (fun v h => Z.max (highest v) h) (highest (m_notes m)) (m_voices m).
Definition on_voices (f : list note -> list note) (m : measure) : measure :=
  Measure (m_off m) (m_ts m) (f (m_notes m)) (map f (m_voices m)).

Section Fix.
Context (quarter : Z).
(** The simple lengths that make up a length ([quarterConversion] and [components]). *)
Context (components : Z -> list Z).

(** 4232-4241 and 1656-1666: the time signature of a part in force at a time, with its
    place: the latest at or before it. *)
Definition meters (p : part) : list (Z * Z) :=
  flat_map (fun m => match m_ts m with Some b => [(m_off m, b)] | None => [] end) p.
Definition active (at_ : Z) (l : list (Z * Z)) : option (Z * Z) :=
  fold_left (fun best x =>
    if fst x <=? at_ then
      match best with
      | None => Some x
      | Some y => if fst y <=? fst x then Some x else best
      end
    else best) l None.

(** 4319-4375, step 3: the only rest of a voice. *)
Definition bar_of (p : part) (m : measure) : Z :=
  match m_ts m with
  | Some b => b
  | None => match active (m_off m) (meters p) with Some (_, b) => b | None => 4 * quarter end
  end.
Definition shrink (bar : Z) (l : list note) : list note :=
  match l with
  | [n] =>
      if n_rest n && (n_len n =? 4 * quarter) && (bar <? n_len n)
      then [Note (n_id n) (n_off n) bar (n_rest n) (n_hidden n) (match n_looks n with None => Some (n_len n) | o => o end)]
      else l
  | _ => l
  end.
Definition step3 (p : part) : part := map (fun m => on_voices (shrink (bar_of p m)) m) p.

(** 4377-4407, step 4: [prev] is the end of the note before. *)
Definition move (o : Z) (n : note) : note := Note (n_id n) o (n_len n) (n_rest n) (n_hidden n) (n_looks n).
Fixpoint slide (prev : option note) (l : list note) : list note :=
  match l with
  | [] => []
  | n :: r =>
      let n' := match prev with
                | None => n
                | Some p => if n_off n - n_off p <? n_len p then move (n_off p + n_len p) n else n
                end in
      n' :: slide (Some n') r
  end.
Definition step4 (p : part) : part := map (on_voices (slide None)) p.

(** 4409-4431, step 5. *)
Fixpoint zip_max (a b : list Z) : list Z :=
  match a, b with
  | x :: a, y :: b => Z.max x y :: zip_max a b
  | [], _ => b
  | _, [] => a
  end.
Definition longest (s : score) : list Z := fold_right (fun p h => zip_max (map measure_len p) h) [] s.
Definition add_space (d : Z) (l : list note) : list note := l ++ [Note None (highest l) d true true None].
Definition pad (len : Z) (m : measure) : measure :=
  if measure_len m <? len then
    match m_voices m with
    | [] => Measure (m_off m) (m_ts m) (add_space (len - measure_len m) (m_notes m)) []
    | vs => Measure (m_off m) (m_ts m) (m_notes m) (map (add_space (len - measure_len m)) vs)
    end
  else m.
Fixpoint pad_all (lens : list Z) (p : part) : part :=
  match lens, p with
  | x :: lens, m :: p => pad x m :: pad_all lens p
  | _, _ => p
  end.
Definition step5 (s : score) : score := map (pad_all (longest s)) s.

(** 4433-4453, step 6. *)
Definition put_at (o : Z) (m : measure) : measure := Measure o (m_ts m) (m_notes m) (m_voices m).
Fixpoint replace_measures (reinserting : bool) (prev : measure) (p : part) : part :=
  match p with
  | [] => []
  | m :: r =>
      let prev_end := m_off prev + measure_len prev in
      let re := reinserting || negb (prev_end =? m_off m) in
      let m' := if re then put_at prev_end m else m in
      m' :: replace_measures re m' r
  end.
Definition step6 (p : part) : part := match p with [] => [] | m :: r => m :: replace_measures false m r end.

(** 1432-1469 and 4461-4480, step 7: hidden rests of lengths with several components are
    split. *)
Fixpoint pieces (n : note) (o : Z) (l : list Z) : list note :=
  match l with
  | [] => []
  | d :: r => Note (n_id n) o d (n_rest n) (n_hidden n) None :: pieces n (o + d) r
  end.
Definition split_hidden (n : note) : list note :=
  if n_rest n && n_hidden n then
    match components (n_len n) with
    | _ :: _ :: _ => pieces n (n_off n) (components (n_len n))
    | _ => [n]
    end
  else [n].
Definition step7 (p : part) : part := map (on_voices (flat_map split_hidden)) p.

(** 4243-4285, step 1: for a part with fewer measures than another one an element that its
    list does not have is assigned to: IndexError, None here. *)
Definition same_count (s : score) : bool :=
  match s with [] => true | p :: r => forallb (fun p' => Nat.eqb (length p') (length p)) r end.
Definition fixup (s : score) : option score :=
  if same_count s then Some (map step7 (map step6 (step5 (map step4 (map step3 s))))) else None.
End Fix.
