(** Models of the exporter's measures: the lines ("slices") of a GridMeasure
    (humdrum/gridmeasure.py), the events of a MeasureData
    (humdrum/measuredata.py) and the loop of the writer that walks through the
    events of all staves (humdrum/humdrumwriter.py). *)
From Coq Require Export String Ascii List NArith ZArith Bool Arith.
Export ListNotations.
From Verif Require Export PyStr.
From Verif Require Import DurationModel.
From Coq Require Import QArith.
Local Close Scope Q_scope.
Open Scope list_scope.

Definition qlt (a b : Q) : bool := negb (Qle_bool b a).

(** gridcommon.py:56-91, [SliceType]; the names ending in an underscore only
    mark ranges and no slice has them. *)
Inductive slicetype :=
| Notes | GraceNotes | Measures | Stria | Clefs | Transpositions | KeyDesignations | KeySigs
| TimeSigs | MeterSigs | Tempos | Labels | LabelAbbrs | Ottavas | Pedals | VerseLabels
| SectionNames | TupletDisplay | Exclusives | Terminators | Manipulators | Layouts
| LocalComments | GlobalComments | GlobalLayouts | ReferenceRecords | Invalid.

Definition slicetype_eqb (a b : slicetype) : bool :=
  match a, b with
  | Notes, Notes | GraceNotes, GraceNotes | Measures, Measures | Stria, Stria | Clefs, Clefs
  | Transpositions, Transpositions | KeyDesignations, KeyDesignations | KeySigs, KeySigs
  | TimeSigs, TimeSigs | MeterSigs, MeterSigs | Tempos, Tempos | Labels, Labels
  | LabelAbbrs, LabelAbbrs | Ottavas, Ottavas | Pedals, Pedals | VerseLabels, VerseLabels
  | SectionNames, SectionNames | TupletDisplay, TupletDisplay | Exclusives, Exclusives
  | Terminators, Terminators | Manipulators, Manipulators | Layouts, Layouts
  | LocalComments, LocalComments | GlobalComments, GlobalComments
  | GlobalLayouts, GlobalLayouts | ReferenceRecords, ReferenceRecords | Invalid, Invalid => true
  | _, _ => false
  end.

(** The places of a slice that hold a token: the voices of its staves, and the
    side columns for dynamics, harmony and verses (gridslice.py, gridside.py). *)
Inductive place :=
| Voice (part staff voice : nat)
| Dynamics (part : nat)
| Harmony (part : nat)
| Verses (part staff : nat).

Definition part_of (p : place) : nat :=
  match p with Voice a _ _ | Dynamics a | Harmony a | Verses a _ => a end.

Definition place_eqb (a b : place) : bool :=
  match a, b with
  | Voice p s v, Voice p' s' v' => Nat.eqb p p' && Nat.eqb s s' && Nat.eqb v v'
  | Dynamics p, Dynamics p' => Nat.eqb p p'
  | Harmony p, Harmony p' => Nat.eqb p p'
  | Verses p s, Verses p' s' => Nat.eqb p p' && Nat.eqb s s'
  | _, _ => false
  end.

(** gridslice.py:47-93, a GridSlice: its timestamp, type, number of parts and
    tokens.  The numbers of staves and voices are not kept, they grow when
    needed (gridslice.py:147-158); the list of verse labels is one text. *)
Record slice := mkSlice { sl_ts : Q; sl_type : slicetype; sl_parts : nat; sl_tokens : list (place * str) }.

Definition new_slice (ts : Q) (ty : slicetype) (parts : nat) : slice := mkSlice ts ty parts [].

(** gridslice.py:216-334, the type predicates. *)
Definition is_data (s : slice) : bool :=
  match sl_type s with Notes | GraceNotes => true | _ => false end.
Definition is_grace (s : slice) : bool := slicetype_eqb (sl_type s) GraceNotes.
Definition is_type (ty : slicetype) (s : slice) : bool := slicetype_eqb (sl_type s) ty.

Fixpoint lookup (p : place) (l : list (place * str)) : option str :=
  match l with
  | [] => None
  | (q, t) :: r => if place_eqb p q then Some t else lookup p r
  end.

Definition token_at (p : place) (s : slice) : option str := lookup p (sl_tokens s).

(** gridslice.py:133-164, [addToken] (and the assignments to side columns).
    [None]: the part does not exist. *)
Definition add_token (p : place) (tok : str) (s : slice) : option slice :=
  if Nat.ltb (part_of p) (sl_parts s)
  then Some (mkSlice (sl_ts s) (sl_type s) (sl_parts s)
               ((p, tok) :: filter (fun q => negb (place_eqb p (fst q))) (sl_tokens s)))
  else None.

(** Where a token goes: on an existing line, or on a new line put at an index
    ([list.insert]; the length of the list is its end). *)
Inductive spot := Reuse (i : nat) | Insert (i : nat).

Definition later (o : option spot) : option spot :=
  match o with
  | Some (Reuse i) => Some (Reuse (S i))
  | Some (Insert i) => Some (Insert (S i))
  | None => None
  end.

Definition insert_at {A} (i : nat) (x : A) (l : list A) : list A := firstn i l ++ x :: skipn i l.

Fixpoint change_at (i : nat) (f : slice -> option slice) (l : list slice) : option (list slice) :=
  match i, l with
  | _, [] => None
  | O, s :: r => match f s with Some s' => Some (s' :: r) | None => None end
  | S i', s :: r => match change_at i' f r with Some r' => Some (s :: r') | None => None end
  end.

Definition put (o : spot) (fresh : slice) (p : place) (tok : str) (l : list slice) : option (list slice) :=
  match o with
  | Reuse i => change_at i (add_token p tok) l
  | Insert i => match add_token p tok fresh with Some s => Some (insert_at i s l) | None => None end
  end.

(** [not self.slices or self.slices[-1].timestamp < ts] *)
Definition past_end (ts : Q) (l : list slice) : bool :=
  match rev l with [] => true | s :: _ => qlt (sl_ts s) ts end.

Definition or_end (o : option spot) (l : list slice) : spot :=
  match o with Some x => x | None => Insert (length l) end.

(** gridmeasure.py:247-264, the loop of [addDataToken]. *)
Fixpoint data_scan (ts : Q) (l : list slice) : option spot :=
  match l with
  | [] => None
  | s :: r =>
      if Qeq_bool ts (sl_ts s) && is_grace s then later (data_scan ts r)
      else if negb (is_data s) then later (data_scan ts r)
      else if Qeq_bool (sl_ts s) ts then Some (Reuse 0)
      else if qlt ts (sl_ts s) then Some (Insert 0)
      else later (data_scan ts r)
  end.

(** gridmeasure.py:226-270, [addDataToken]. *)
Definition data_spot (ts : Q) (l : list slice) : spot :=
  if past_end ts l then Insert (length l) else or_end (data_scan ts l) l.
Definition addDataToken (ts : Q) (parts : nat) (p : place) (tok : str) (l : list slice) : option (list slice) :=
  put (data_spot ts l) (new_slice ts Notes parts) p tok l.

(** gridmeasure.py:1098-1105, [startIdxOfLayoutGroupBefore]; the loop runs over
    the slices before the index, the nearest first. *)
Fixpoint layout_run (rev_before : list slice) : nat :=
  match rev_before with
  | s :: r => if is_type Layouts s then S (layout_run r) else 0
  | [] => 0
  end.
Definition startIdxOfLayoutGroupBefore (i : nat) (l : list slice) : nat :=
  i - layout_run (rev (firstn i l)).

(** gridmeasure.py:299-323, the loop of [addTokenOfSliceType]. *)
Fixpoint type_scan (before : bool) (ty : slicetype) (ts : Q) (done todo : list slice) : option spot :=
  match todo with
  | [] => None
  | s :: r =>
      if Qeq_bool (sl_ts s) ts && is_type ty s then Some (Reuse (length done))
      else if Qeq_bool (sl_ts s) ts && is_data s then
        Some (Insert (if before then startIdxOfLayoutGroupBefore (length done) (done ++ todo)
                      else length done))
      else if qlt ts (sl_ts s) then Some (Insert (length done))
      else type_scan before ty ts (done ++ [s]) r
  end.

(** gridmeasure.py:276-329, [addTokenOfSliceType] (and its callers 338-480,
    where only tempos have [beforeAnyLayouts]). *)
Definition type_spot (before : bool) (ty : slicetype) (ts : Q) (l : list slice) : spot :=
  if past_end ts l then Insert (length l) else or_end (type_scan before ty ts [] l) l.
Definition addTokenOfSliceType (before : bool) (ty : slicetype) (ts : Q) (parts : nat) (p : place)
    (tok : str) (l : list slice) : option (list slice) :=
  put (type_spot before ty ts l) (new_slice ts ty parts) p tok l.

(** gridmeasure.py:151-170 and 191-211, the backward loops of [addGraceToken],
    over the slices before an index, the nearest first; [i] is that index. *)
Fixpoint grace_back (number counter i : nat) (rev_before : list slice) : option spot :=
  match rev_before with
  | [] => None
  | s :: r =>
      if is_grace s then
        if Nat.eqb (S counter) number then Some (Reuse (i - 1)) else Some (Insert i)
      else if is_type Layouts s then grace_back number counter (i - 1) r
      else if is_data s then Some (Insert i)
      else grace_back number counter (i - 1) r
  end.

Inductive found := Raise | Missing | At (i : nat).
(** gridmeasure.py:175-189: the first data slice at the timestamp; a later slice
    before it raises. *)
Fixpoint grace_find (ts : Q) (i : nat) (l : list slice) : found :=
  match l with
  | [] => Missing
  | s :: r =>
      if qlt ts (sl_ts s) then Raise
      else if is_data s && Qeq_bool (sl_ts s) ts then At i
      else grace_find ts (S i) r
  end.

(** gridmeasure.py:121-217, [addGraceToken].  [None]: an exception;
    [Some None]: no place found, nothing is done. *)
Definition grace_spot (ts : Q) (number : nat) (l : list slice) : option (option spot) :=
  if Nat.eqb number 0 then None
  else match rev l with
  | [] => Some (Some (Insert 0))
  | last :: _ =>
      if qlt (sl_ts last) ts then Some (grace_back number 0 (length l) (rev l))
      else match grace_find ts 0 l with
           | Raise => None
           | Missing => Some (Some (Insert 0))
           | At i => match grace_back number 0 i (rev (firstn i l)) with
                     | Some o => Some (Some o)
                     | None => Some (Some (Insert 0))
                     end
           end
  end.
Definition addGraceToken (ts : Q) (parts number : nat) (p : place) (tok : str) (l : list slice)
  : option (list slice) :=
  match grace_spot ts number l with
  | None => None
  | Some None => Some l
  | Some (Some o) => put o (new_slice ts GraceNotes parts) p tok l
  end.

(** gridmeasure.py:627-631 and 667-671: an existing label line. *)
Fixpoint label_scan (ty : slicetype) (ts : Q) (l : list slice) : option spot :=
  match l with
  | [] => None
  | s :: r => if Qeq_bool (sl_ts s) ts && is_type ty s then Some (Reuse 0) else later (label_scan ty ts r)
  end.
(** gridmeasure.py:606-637 [addLabelToken] and 646-677 [addLabelAbbrToken]. *)
Definition label_spot (ty : slicetype) (ts : Q) (l : list slice) : spot :=
  if past_end ts l then Insert (length l)
  else match label_scan ty ts l with Some o => o | None => Insert 0 end.
Definition addLabelToken (ty : slicetype) (ts : Q) (parts : nat) (p : place) (tok : str) (l : list slice)
  : option (list slice) :=
  put (label_spot ty ts l) (new_slice ts ty parts) p tok l.

Definition has_text (tok : str) (s : slice) : bool :=
  match token_at (Voice 0 0 0) s with Some t => str_eqb tok t | None => false end.

(** gridmeasure.py:702-727 and 744-769, the loops of [addGlobalComment] and
    [addGlobalReference]; [Some None]: the same text is already there. *)
Fixpoint global_scan (ty : slicetype) (tok : str) (ts : Q) (i : nat) (l : list slice) : option (option nat) :=
  match l with
  | [] => None
  | s :: r =>
      if Qeq_bool (sl_ts s) ts then
        if is_type ty s && has_text tok s then Some None else Some (Some i)
      else if qlt ts (sl_ts s) then Some (Some i)
      else global_scan ty tok ts (S i) r
  end.

Definition global_line (ty : slicetype) (tok : str) (ts : Q) : slice :=
  mkSlice ts ty 1 [(Voice 0 0 0, tok)].

(** gridmeasure.py:687-729 [addGlobalComment], 731-771 [addGlobalReference]. *)
Definition addGlobal (ty : slicetype) (tok : str) (ts : Q) (l : list slice) : list slice :=
  if past_end ts l then l ++ [global_line ty tok ts]
  else match global_scan ty tok ts 0 l with
       | Some (Some i) => insert_at i (global_line ty tok ts) l
       | _ => l
       end.

(** gridmeasure.py:107-112, [appendGlobalLayout]. *)
Definition appendGlobalLayout (tok : str) (ts : Q) (l : list slice) : list slice :=
  l ++ [global_line GlobalLayouts tok ts].

(** gridmeasure.py:773-778, [addGlobalLayoutAtMeasureStart]. *)
Definition addGlobalLayoutAtMeasureStart (mts : Q) (tok : str) (l : list slice) : list slice :=
  global_line GlobalLayouts tok mts :: l.

(** [self.slices[associatedSliceIdx - 1]]: index -1 is the last slice. *)
Definition prev_slice (i : nat) (l : list slice) : option (nat * slice) :=
  match i with
  | O => match rev l with s :: _ => Some (length l - 1, s) | [] => None end
  | S k => match nth_error l k with Some s => Some (k, s) | None => None end
  end.

(** May the place of an existing line be used?  gridmeasure.py:1065 (voices of
    layout lines: no token, or a null comment), 520 (tuplet lines: no token, or a
    null interpretation), 968, 1182, 1235 (side columns: nothing there). *)
Definition free_at (null : str) (p : place) (s : slice) : bool :=
  match token_at p s with
  | None => true
  | Some t => match p with Voice _ _ _ => str_eqb t null | _ => false end
  end.

Definition is_none {A} (o : option A) : bool := match o with None => true | Some _ => false end.

(** The slice a token is associated with: an index, or none for the end of the
    measure; an index that does not exist stands for a slice of another measure.
    gridmeasure.py:1054-1096 [addLayoutParameter] without
    [beforeAnyNonTextLayouts], 1143-1195 [addDynamicsLayoutParameters], 1196-1250
    [addHarmonyLayoutParameters], 932-990 [addVerseLabels] and 482-542
    [addTupletDisplayTokenBefore] (which does nothing when given none).  [mend]: the
    end time of the measure. *)
Definition addBefore (mend : Q) (ty : slicetype) (null : str) (assoc : option nat) (p : place)
    (tok : str) (l : list slice) : option (list slice) :=
  match l with
  | [] => Some l
  | first :: _ =>
      let i := match assoc with Some i => i | None => length l end in
      match assoc, nth_error l i with
      | Some _, None => Some l
      | _, owner =>
          if is_none assoc && slicetype_eqb ty TupletDisplay then Some l else
          let o := match prev_slice i l with
                   | Some (k, s) => if is_type ty s && free_at null p s then Reuse k else Insert i
                   | None => Insert i
                   end in
          let fresh := match owner with
                       | Some s => new_slice (sl_ts s) ty (sl_parts s)
                       | None => new_slice mend ty (sl_parts (last l first))
                       end in
          put o fresh p tok l
      end
  end.

Definition is_text_layout (p : place) (s : slice) : bool :=
  match token_at p s with Some t => starts_with (S_ "!LO:TX") t | None => false end.

(** gridmeasure.py:1107-1135, [startIdxOfNonTextLayoutGroupBefore]. *)
Fixpoint nontext_run (p : place) (rev_before : list slice) : nat :=
  match rev_before with
  | s :: r => if is_type Layouts s && negb (is_text_layout p s) then S (nontext_run p r) else 0
  | [] => 0
  end.

(** gridmeasure.py:1025-1096, [addLayoutParameter] with
    [beforeAnyNonTextLayouts]. *)
Definition addTextBefore (mend : Q) (assoc : option nat) (p : place) (tok : str) (l : list slice)
  : option (list slice) :=
  match l with
  | [] => Some l
  | first :: _ =>
      let i := match assoc with Some i => i | None => length l end in
      match assoc, nth_error l i with
      | Some _, None => Some l
      | _, _ =>
          let k := i - nontext_run p (rev (firstn i l)) in
          let fresh := match nth_error l k with
                       | Some s => new_slice (sl_ts s) Layouts (sl_parts s)
                       | None => new_slice mend Layouts (sl_parts (last l first))
                       end in
          put (Insert k) fresh p tok l
      end
  end.

Definition pedal_type (tok : str) : slicetype :=
  if str_eqb tok (S_ "*ped") || str_eqb tok (S_ "*Xped") then Pedals else Ottavas.

(** gridmeasure.py:544-599, [addOttavaOrPedalTokensBefore]: the index is found
    once, every token is inserted there. *)
Fixpoint ottava_loop (i : nat) (owner : slice) (p : place) (toks : list str) (l : list slice)
  : option (list slice) :=
  match toks with
  | [] => Some l
  | t :: r =>
      match put (Insert i) (new_slice (sl_ts owner) (pedal_type t) (sl_parts owner)) p t l with
      | Some l' => ottava_loop i owner p r l'
      | None => None
      end
  end.
Fixpoint ottava_end (mend : Q) (p : place) (toks : list str) (l : list slice) : option (list slice) :=
  match toks with
  | [] => Some l
  | t :: r =>
      match rev l with
      | [] => None
      | s :: _ =>
          match put (Insert (length l)) (new_slice mend (pedal_type t) (sl_parts s)) p t l with
          | Some l' => ottava_end mend p r l'
          | None => None
          end
      end
  end.
Definition addOttavaOrPedalTokensBefore (mend : Q) (assoc : option nat) (part staff : nat)
    (toks : list str) (l : list slice) : option (list slice) :=
  let p := Voice part staff 0 in
  match toks, assoc with
  | [], _ => Some l
  | _, None => ottava_end mend p toks l
  | _, Some i => match nth_error l i with
                 | None => Some l
                 | Some owner => ottava_loop i owner p toks l
                 end
  end.

(** The additions of this file. *)
Inductive addition :=
| Data (ts : Q) (parts : nat) (p : place) (tok : str)
| OfType (before : bool) (ty : slicetype) (ts : Q) (parts : nat) (p : place) (tok : str)
| Grace (ts : Q) (parts number : nat) (p : place) (tok : str)
| Label (ty : slicetype) (ts : Q) (parts : nat) (p : place) (tok : str)
| Comment (ty : slicetype) (tok : str) (ts : Q)
| EndLayout (tok : str) (ts : Q)
| StartLayout (tok : str)
| Before (ty : slicetype) (null : str) (assoc : option nat) (p : place) (tok : str)
| TextBefore (assoc : option nat) (p : place) (tok : str)
| OttavasBefore (assoc : option nat) (part staff : nat) (toks : list str).

(** One call, in a measure starting at [mts] and ending at [mend].  [None]: an
    exception. *)
Definition add (mts mend : Q) (a : addition) (l : list slice) : option (list slice) :=
  match a with
  | Data ts n p tok => addDataToken ts n p tok l
  | OfType b ty ts n p tok => addTokenOfSliceType b ty ts n p tok l
  | Grace ts n k p tok => addGraceToken ts n k p tok l
  | Label ty ts n p tok => addLabelToken ty ts n p tok l
  | Comment ty tok ts => Some (addGlobal ty tok ts l)
  | EndLayout tok ts => Some (appendGlobalLayout tok ts l)
  | StartLayout tok => Some (addGlobalLayoutAtMeasureStart mts tok l)
  | Before ty null assoc p tok => addBefore mend ty null assoc p tok l
  | TextBefore assoc p tok => addTextBefore mend assoc p tok l
  | OttavasBefore assoc part staff toks => addOttavaOrPedalTokensBefore mend assoc part staff toks l
  end.

Fixpoint add_all (mts mend : Q) (h : list addition) (l : list slice) : option (list slice) :=
  match h with
  | [] => Some l
  | a :: r => match add mts mend a l with Some l' => add_all mts mend r l' | None => None end
  end.

(** ** Emitting a measure *)

Definition is_rehearsal (s : slice) : bool :=
  is_type GlobalLayouts s &&
  match token_at (Voice 0 0 0) s with Some t => starts_with (S_ "!!LO:REH") t | None => false end.

(** gridmeasure.py:823-830. *)
Definition is_trigger (s : slice) : bool :=
  is_data s || is_type Layouts s || is_type Manipulators s || is_type VerseLabels s.

(** gridmeasure.py:803-861, the loop of [transferTokens] with [firstBar]: the
    barline and the rehearsal marks held back, and whether they have been written.
    The result is the list of slices written. *)
Fixpoint first_bar_loop (bar : option slice) (marks : list slice) (done : bool) (l : list slice)
  : list slice :=
  match l with
  | [] => []
  | s :: r =>
      if is_type Invalid s then first_bar_loop bar marks done r
      else if is_trigger s && negb done then
        match bar with Some b => marks ++ [b] | None => [] end ++ s :: first_bar_loop bar marks true r
      else if negb done && is_type Measures s && match bar with None => true | Some _ => false end
      then first_bar_loop (Some s) marks done r
      else if negb done && is_rehearsal s then first_bar_loop bar (marks ++ [s]) done r
      else s :: first_bar_loop bar marks done r
  end.

(** gridmeasure.py:785-861, [transferTokens], without the repair of the duration
    of the last slice (787-800), which only matters for the optional column of
    rhythms. *)
Definition transferTokens (mdur : Q) (firstBar : bool) (l : list slice) : list slice :=
  if firstBar && negb (Qeq_bool mdur 0) then first_bar_loop None [] false l
  else filter (fun s => negb (is_type Invalid s)) l.

(** ** Events of a measure *)

(** eventdata.py: an EventData, as far as sorting goes. *)
Record event := mkEvent { ev_id : nat; ev_start : Q; ev_dur : Q; ev_wedge : bool }.

(** [list.sort(key=...)]: stable. *)
Fixpoint insert_event (e : event) (l : list event) : list event :=
  match l with
  | [] => [e]
  | x :: r => if Qle_bool (ev_start e) (ev_start x) then e :: l else x :: insert_event e r
  end.
Definition sort_events (l : list event) : list event := fold_right insert_event [] l.

(** measuredata.py:547-551: consecutive different start times. *)
Fixpoint bin_times (last : option Q) (l : list event) : list Q :=
  match l with
  | [] => []
  | e :: r =>
      if match last with Some t => Qeq_bool (ev_start e) t | None => false end
      then bin_times last r
      else ev_start e :: bin_times (Some (ev_start e)) r
  end.

(** measuredata.py:36-41, [SimultaneousEvents]. *)
Record bin := mkBin { bin_time : Q; bin_zero : list event; bin_nonzero : list event }.

Definition has_length (e : event) : bool := negb (Qeq_bool (ev_dur e) 0) || ev_wedge e.

(** measuredata.py:559-572: the dictionary from times to bins; a later bin with
    the same time would replace an earlier one. *)
Definition file_event (e : event) (b : bin) : bin :=
  if has_length e then mkBin (bin_time b) (bin_zero b) (bin_nonzero b ++ [e])
  else mkBin (bin_time b) (bin_zero b ++ [e]) (bin_nonzero b).
Fixpoint file_rev (e : event) (rbins : list bin) : list bin :=
  match rbins with
  | [] => []
  | b :: r => if Qeq_bool (bin_time b) (ev_start e) then file_event e b :: r else b :: file_rev e r
  end.
Definition file (bins : list bin) (e : event) : list bin := rev (file_rev e (rev bins)).

(** measuredata.py:544-572, [_sortEvents]. *)
Definition sortEvents (events : list event) : list bin :=
  let evs := sort_events events in
  fold_left file evs (map (fun t => mkBin t [] []) (bin_times None evs)).

(** ** Hidden rests *)

(** An element of a voice: its offset in the measure and its quarterLength; and
    whether it is an sf or sfz dynamic taken over by a note (measuredata.py:284-303). *)
Record element := mkElement { el_offset : Q; el_length : Q; el_absorbed : bool }.

Inductive emitted := HiddenRest (start length : Q) | Element (start : Q) (e : element).

(** measuredata.py:274-281 and 348-358: rests one after the other. *)
Fixpoint rests_from (start : Q) (durs : list Q) : list emitted * Q :=
  match durs with
  | [] => ([], start)
  | d :: r => let '(es, t) := rests_from (start + d)%Q r in (HiddenRest start d :: es, t)
  end.

(** measuredata.py:309-321: the rests of a gap. *)
Definition gap_rests (cur start : Q) : option (list emitted) :=
  if qlt cur start then
    match getPowerOfTwoQuarterLengthsWithDotsAddingTo (start - cur)%Q with
    | Some durs => Some (map (fun d => HiddenRest cur d) durs)
    | None => None
    end
  else Some [].

(** measuredata.py:283-346, the loop over the elements; without the extra events
    for hairpins. *)
Fixpoint emit_elements (mstart cur : Q) (els : list element) : option (list emitted) :=
  match els with
  | [] => Some []
  | e :: r =>
      if el_absorbed e then emit_elements mstart cur r
      else
        let start := (mstart + el_offset e)%Q in
        match gap_rests cur start with
        | None => None
        | Some rests =>
            let cur' := ((if qlt cur start then start else cur) + el_length e)%Q in
            match emit_elements mstart cur' r with
            | Some more => Some (rests ++ Element start e :: more)
            | None => None
            end
        end
  end.

(** measuredata.py:256-358, [_parseEventsIn]. *)
Definition parseEventsIn (mstart mdur : Q) (els : list element) (emptyStart emptyEnd : Q)
  : option (list emitted) :=
  match (if qlt 0 emptyStart then
           match getPowerOfTwoQuarterLengthsWithDotsAddingTo emptyStart with
           | Some durs => Some (rests_from mstart durs)
           | None => None
           end
         else Some ([], mstart)) with
  | None => None
  | Some (starts, cur) =>
      match emit_elements mstart cur els with
      | None => None
      | Some middle =>
          match (if qlt 0 emptyEnd then
                   match getPowerOfTwoQuarterLengthsWithDotsAddingTo emptyEnd with
                   | Some durs => Some (fst (rests_from (mstart + mdur - emptyEnd)%Q durs))
                   | None => None
                   end
                 else Some []) with
          | None => None
          | Some ends => Some (starts ++ middle ++ ends)
          end
      end
  end.

(** ** Walking through the events of all staves *)

(** humdrumwriter.py:1342-1376: [nextTime] before the loop; a staff without events
    counts as time -1. *)
Fixpoint first_time (next : Q) (staves : list (list bin)) : Q :=
  match staves with
  | [] => next
  | s :: r =>
      let cur := match s with b :: _ => bin_time b | [] => (-1)%Q end in
      first_time (if qlt next 0 then cur else if qlt cur next then cur else next) r
  end.

(** humdrumwriter.py:1401-1414, the loop over the staves, here a list in the order
    of the loop; a staff is its remaining events.  Result: the events taken (in the
    order they are handed over), the staves, [nextTime] and [allEnd]. *)
Fixpoint take_now (now next : Q) (allEnd : bool) (staves : list (nat * list bin))
  : list (nat * bin) * list (nat * list bin) * Q * bool :=
  match staves with
  | [] => ([], [], next, allEnd)
  | (i, s) :: r =>
      let '(taken, rest) :=
        match s with
        | [] => ([], [])
        | b :: bs => if Qeq_bool (bin_time b) now then ([(i, b)], bs) else ([], s)
        end in
      let '(next', allEnd') :=
        match rest with
        | [] => (next, allEnd)
        | b :: _ => ((if qlt next 0 || qlt (bin_time b) next then bin_time b else next), false)
        end in
      let '(ts, rs, n, e) := take_now now next' allEnd' r in
      (taken ++ ts, (i, rest) :: rs, n, e)
  end.

(** humdrumwriter.py:1394-1417, the outer loop: the list of the calls of
    [_convertNowEvents] with their times.  [None]: out of fuel. *)
Fixpoint walk (fuel : nat) (next : Q) (staves : list (nat * list bin))
  : option (list (Q * list (nat * bin))) :=
  match fuel with
  | O => None
  | S f =>
      let '(now, rest, next', allEnd) := take_now next (-1)%Q true staves in
      if allEnd then Some [(next, now)]
      else match walk f next' rest with
           | Some more => Some ((next, now) :: more)
           | None => None
           end
  end.

Fixpoint number {A} (i : nat) (l : list A) : list (nat * A) :=
  match l with [] => [] | x :: r => (i, x) :: number (S i) r end.

(** humdrumwriter.py:1304-1417, [_insertMeasure]; the staves are numbered and
    walked through from the last to the first. *)
Definition insertMeasure (staves : list (list bin)) : option (list (Q * list (nat * bin))) :=
  walk (2 + length (concat staves)) (first_time (-1)%Q staves) (rev (number 0 staves)).
