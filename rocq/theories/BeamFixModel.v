(** [M21Utilities.fixupBadBeams] (converter21/shared/m21utilities.py:4067-4178).

    Notes are references into a heap of beam lists, as the function changes
    beams in place and keeps the last note of a voice until the next measure.
    Simplified: the chord symbols and grace notes that the function leaves out
    are not in the model's voices; a beam is its number and its type (the
    direction of partial beams is not looked at); the copy that is made when
    [inPlace] is false is the function itself: it returns the new heap. *)
From Coq Require Import List Bool Arith Lia.
Import ListNotations.

Inductive btype := BStart | BContinue | BStop | BPartial | BNone.
Definition beams := list (nat * btype).
Definition heap := nat -> beams.
Definition upd (h : heap) (a : nat) (b : beams) : heap := fun x => if Nat.eqb x a then b else h x.

Definition key := nat.                             (* voice id, or 'measure' *)
Definition measure := list (key * list nat).       (* the voices of a measure *)
Definition part := list measure.

Definition btype_eqb (a b : btype) : bool :=
  match a, b with
  | BStart, BStart | BContinue, BContinue | BStop, BStop | BPartial, BPartial | BNone, BNone => true
  | _, _ => false
  end.

(** music21's [Beams.getByNumber]: the first beam with the number. *)
Fixpoint by_number (n : nat) (bs : beams) : option btype :=
  match bs with
  | [] => None
  | (m, t) :: bs' => if Nat.eqb m n then Some t else by_number n bs'
  end.

(** A continue becomes a stop (lines 4134-4136 and its copies). *)
Definition stopped (t : btype) : btype := match t with BContinue => BStop | _ => t end.

(** Lines 4137-4162: one beam of the previous note, given the beams of this one. *)
Definition fix_beam (onePart : bool) (this : beams) (b : nat * btype) : nat * btype :=
  let (num, t) := b in
  match by_number num this with
  | None => (num, stopped t)
  | Some BStart => (num, stopped t)
  | Some BStop => (num, if onePart then match t with BStop => BContinue | _ => t end else t)
  | Some _ => b
  end.

(** Lines 4127-4162: the previous note, if there is one. *)
Definition fix_prev (onePart : bool) (this : beams) (prev : beams) : beams :=
  match this with
  | [] => map (fun b : nat * btype => (fst b, stopped (snd b))) prev
  | _ => map (fix_beam onePart this) prev
  end.
Definition fix_pair (onePart : bool) (h : heap) (prev : option nat) (this : nat) : heap :=
  match prev with
  | None => h
  | Some p => upd h p (fix_prev onePart (h this) (h p))
  end.

(** Lines 4118-4162: the notes of a voice in a measure. *)
Fixpoint fix_voice (onePart : bool) (h : heap) (prev : option nat) (notes : list nat) : heap :=
  match notes with
  | [] => h
  | x :: notes' => fix_voice onePart (fix_pair onePart h prev x) (Some x) notes'
  end.

(** The dictionary [lastNCInPrevVoice]. *)
Definition lasts := key -> option nat.
Definition set_last (l : lasts) (k : key) (v : option nat) : lasts := fun x => if Nat.eqb x k then v else l x.
Definition last_note (notes : list nat) : option nat := match rev notes with [] => None | x :: _ => Some x end.

(** Lines 4164-4178: the end of a voice, in the last measure or in another. *)
Definition end_voice (isLast : bool) (k : key) (notes : list nat) (hl : heap * lasts) : heap * lasts :=
  let (h, l) := hl in
  if isLast then
    match last_note notes with
    | None => (h, l)
    | Some x => (upd h x (map (fun b : nat * btype => (fst b, stopped (snd b))) (h x)), l)
    end
  else (h, set_last l k (last_note notes)).

Fixpoint fix_measure (onePart isLast : bool) (hl : heap * lasts) (m : measure) : heap * lasts :=
  match m with
  | [] => hl
  | (k, notes) :: m' =>
      let (h, l) := hl in
      fix_measure onePart isLast (end_voice isLast k notes (fix_voice onePart h (l k) notes, l)) m'
  end.

Fixpoint fix_measures (onePart : bool) (hl : heap * lasts) (ms : part) : heap * lasts :=
  match ms with
  | [] => hl
  | m :: ms' => fix_measures onePart (fix_measure onePart (match ms' with [] => true | _ => false end) hl m) ms'
  end.

(** Lines 4085-4178: all parts of the score, each with a fresh dictionary. *)
Definition fixupBadBeams (parts : list part) (h : heap) : heap :=
  fold_left (fun h p => fst (fix_measures (Nat.eqb (length parts) 1) (h, fun _ => None) p)) parts h.
