(** Elements of an MEI layer: how beams, tuplets and tremolos between two notes are nested
    (converter21/mei/meilayer.py).

    Objects of a voice are known by their position in it.  Left out: spaces for gaps, changes of
    clef, key and meter taken from other voices, the element of a tremolo on one note. *)
From Verif Require Import PyStr.
From Coq Require Import QArith.
Local Close Scope Q_scope.

(** An object of the voice: its offset in the measure and its length, in quarter notes. *)
Record object := Object { ob_offset : Q; ob_length : Q }.

Inductive kind := Beam | Tuplet | Tremolo (beams : Z).

(** A spanner: its kind (for a tremolo: with the number of beams of a note and its tremolo marks
    together), and the objects that it spans; [None]: an object of another measure. *)
Record spanner := Spanner { sp_kind : kind; sp_elements : list (option nat) }.

Inductive tag := TagBeam | TagTuplet | TagFTrem.
Definition tag_of (k : kind) : tag := match k with Beam => TagBeam | Tuplet => TagTuplet | Tremolo _ => TagFTrem end.
Definition tag_eqb (a b : tag) : bool := match a, b with TagBeam, TagBeam | TagTuplet, TagTuplet | TagFTrem, TagFTrem => true | _, _ => false end.

(** ** xml.etree.ElementTree.TreeBuilder, inside of a layer *)

(** What is in the layer: objects and elements.  The number of an element says for which spanner
    it was started. *)
Inductive node := NObject (i : nat) | NElement (t : tag) (id : nat) (l : list node).

(** Open elements, the innermost first, with their contents so far; contents of the layer itself. *)
Record builder := Builder { open_ : list (tag * nat * list node); root : list node }.

Definition add_node (x : node) (b : builder) : builder :=
  match open_ b with
  | (t, id, c) :: r => Builder ((t, id, c ++ [x]) :: r) (root b)
  | [] => Builder [] (root b ++ [x])
  end.
Definition tb_start (t : tag) (id : nat) (b : builder) : builder := Builder ((t, id, []) :: open_ b) (root b).
(** [end]: closes the last element that is open.  The version in C, which is what is normally used,
    does not look at the name; the one in Python ([strict]) wants the right name.  [None]: it
    would close the layer itself, or has the wrong name. *)
Definition tb_end (strict : bool) (t : tag) (b : builder) : option builder :=
  match open_ b with
  | (t', id, c) :: r => if strict && negb (tag_eqb t t') then None else Some (add_node (NElement t' id c) (Builder r (root b)))
  | [] => None
  end.

(** ** Sorting: Python's sort is stable, also in reverse *)
Fixpoint insert {A} (before : A -> A -> bool) (x : A) (l : list A) : list A :=
  match l with [] => [x] | y :: r => if before x y then x :: y :: r else y :: insert before x r end.
Definition sort_by {A} (before : A -> A -> bool) (l : list A) : list A := fold_right (insert before) [] l.
Definition ascending {A} (key : A -> Q) (x y : A) : bool := Qle_bool (key x) (key y).
Definition descending {A} (key : A -> Q) (x y : A) : bool := Qle_bool (key y) (key x).

(** ** Spanners *)
Definition oeqb (a b : option nat) : bool := match a, b with Some x, Some y => Nat.eqb x y | None, None => true | _, _ => false end.
Definition is_in (x : option nat) (l : list (option nat)) : bool := existsb (oeqb x) l.
Definition isdisjoint (a b : list (option nat)) : bool := forallb (fun x => negb (is_in x b)) a.
Definition issubset (a b : list (option nat)) : bool := forallb (fun x => is_in x b) a.

(** [isFirst], [isLast] of music21's spanners. *)
Definition is_first (s : spanner) (i : nat) : bool := match sp_elements s with x :: _ => oeqb x (Some i) | [] => false end.
Definition is_last (s : spanner) (i : nat) : bool := oeqb (last (sp_elements s) None) (Some i).
(** m21utilities.py:1635-1642, [allSpannedElementsAreInHierarchy]. *)
Definition in_measure (s : spanner) : bool := forallb (fun x => match x with Some _ => true | None => false end) (sp_elements s).

Section layer.
Variable voice : list object.
Variable spanners : list spanner.

(** The spanners with their numbers. *)
Definition numbered : list (nat * spanner) := combine (seq 0 (length spanners)) spanners.

Definition offset_at (x : option nat) : Q := match x with Some i => match nth_error voice i with Some o => ob_offset o | None => 0 end | None => 0 end.
Definition length_at (x : option nat) : Q := match x with Some i => match nth_error voice i with Some o => ob_length o | None => 0 end | None => 0 end.
(** m21utilities.py:1645-1653, [getSpannerQuarterLength].  (For objects of other measures the code
    raises an exception or finds the right offset; here they are taken to be at 0.) *)
Definition spannerQL (s : spanner) : Q :=
  let x := last (sp_elements s) None in
  (offset_at x + length_at x - offset_at (hd None (sp_elements s)))%Q.

(** meilayer.py:453-460, 578-585, [beamsBeforeTupletsBeforeTremolos]. *)
Definition kind_number (s : spanner) : Q := match sp_kind s with Beam => 1 | Tuplet => 2 | Tremolo _ => 3 end.

(** meilayer.py:292-303, [getAllBeamsInVoice]. *)
Definition is_beam (s : spanner) : bool := match sp_kind s with Beam => true | _ => false end.
Definition voiceBeams : list (nat * spanner) :=
  filter (fun p => is_beam (snd p) && existsb (fun x => match x with Some i => Nat.ltb i (length voice) | None => false end) (sp_elements (snd p))) numbered.

(** meilayer.py:462-502, [nestsReasonably]. *)
Definition nestsReasonably (tuplet : spanner) : bool :=
  let t := sp_elements tuplet in
  forallb (fun p => let b := sp_elements (snd p) in
    if isdisjoint t b then true
    else if issubset t b then true
    else if negb (issubset b t) then false
    else forallb (fun p1 => let b1 := sp_elements (snd p1) in
           if Nat.eqb (fst p1) (fst p) then true
           else if isdisjoint b1 t then true
           else issubset b1 t) voiceBeams) voiceBeams.

(** Numbers of the spanners with the mark [mei_beam] or [mei_tuplet], and with [mei_skip]. *)
Record marks := Marks { mei_mark : list nat; mei_skip : list nat }.
Definition has_mark (id : nat) (l : list nat) : bool := existsb (Nat.eqb id) l.

(** meilayer.py:504-558, [getOrderedBeamTupletFTremStarts]: the spanners that start with an
    object, in their order, and the marks set. *)
Definition start_wanted (i : nat) (p : nat * spanner) : bool :=
  is_first (snd p) i &&
  match sp_kind (snd p) with
  | Beam => in_measure (snd p)
  | Tuplet => in_measure (snd p) && nestsReasonably (snd p)
  | Tremolo _ => Nat.eqb (length (sp_elements (snd p))) 2
  end.
Definition is_tremolo (s : spanner) : bool := match sp_kind s with Tremolo _ => true | _ => false end.
Definition getOrderedStarts (i : nat) (m : marks) : list (nat * spanner) * marks :=
  let out := filter (start_wanted i) numbered in
  (sort_by (descending (fun p => spannerQL (snd p))) (sort_by (descending (fun p => kind_number (snd p))) out),
   Marks (map fst (filter (fun p => negb (is_tremolo (snd p))) out) ++ mei_mark m) (mei_skip m)).

(** meilayer.py:570-617, [getOrderedBeamTupletFTremEnds]. *)
Definition end_wanted (i : nat) (m : marks) (p : nat * spanner) : bool :=
  is_last (snd p) i &&
  match sp_kind (snd p) with
  | Beam | Tuplet => has_mark (fst p) (mei_mark m)
  | Tremolo _ => Nat.eqb (length (sp_elements (snd p))) 2
  end.
Definition getOrderedEnds (i : nat) (m : marks) : list (nat * spanner) :=
  sort_by (ascending (fun p => spannerQL (snd p))) (sort_by (ascending (fun p => kind_number (snd p))) (filter (end_wanted i m) numbered)).

(** meilayer.py:378-428, [processBeamTupletFTremStart]: no element for a tremolo with no beams or
    more than nine (tables 305-332). *)
Definition process_start (b : builder * marks) (p : nat * spanner) : builder * marks :=
  match sp_kind (snd p) with
  | Tremolo n => if (Z.leb 1 n && Z.leb n 9)%bool then (tb_start TagFTrem (fst p) (fst b), snd b)
                 else (fst b, Marks (mei_mark (snd b)) (fst p :: mei_skip (snd b)))
  | k => (tb_start (tag_of k) (fst p) (fst b), snd b)
  end.

(** meilayer.py:430-445, [processBeamTupletFTremEnd]. *)
Definition process_end (strict : bool) (m : marks) (b : option builder) (p : nat * spanner) : option builder :=
  match b with
  | None => None
  | Some b => if has_mark (fst p) (mei_skip m) then Some b else tb_end strict (tag_of (sp_kind (snd p))) b
  end.

(** meilayer.py:242-269 (in [makeRootElement]): one object of the voice. *)
Definition emit_object (strict : bool) (st : option (builder * marks)) (i : nat) : option (builder * marks) :=
  match st with
  | None => None
  | Some (b, m) =>
      let '(starts, m1) := getOrderedStarts i m in
      let ends := getOrderedEnds i m1 in
      let '(b2, m2) := fold_left process_start starts (b, m1) in
      match fold_left (process_end strict m2) ends (Some (add_node (NObject i) b2)) with
      | Some b3 => Some (b3, m2)
      | None => None
      end
  end.

(** meilayer.py:95-290, [makeRootElement]: what is in the layer; [None] also if an element is
    left open. *)
Definition makeLayer (strict : bool) : option (list node) :=
  match fold_left (emit_object strict) (seq 0 (length voice)) (Some (Builder [] [], Marks [] [])) with
  | Some (Builder [] c, _) => Some c
  | _ => None
  end.
End layer.
