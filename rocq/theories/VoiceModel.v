(** Model of the distribution of the tokens of a measure to staves and layers,
    with the invisible rests that fill gaps (humdrum/humdrumfile.py). *)
From Verif Require Import PyStr LayoutModel TextModel SpineModel ImportModel DurationModel.
From Coq Require Import QArith.
Local Close Scope Q_scope.

(** What is read of a token: its text, its track (0 when it has none), whether
    it is in a **kern or **mens spine ([isStaffDataType]), its [duration]
    (negative when it has none) and the [durationFromStart] and
    [durationFromBarline] of its line. *)
Record itok := mkI {
  i_text : str; i_track : nat; i_staff : bool; i_dur : Q; i_start : Q; i_bar : Q }.
Record iline := mkIL { il_text : str; il_toks : list itok }.

(** humdrumtoken.py: [isData], [isNull], [isNonNullData], [isLocalComment]. *)
Definition tok_data (t : str) : bool :=
  negb (starts_with (S_ "*") t) && negb (starts_with (S_ "!") t) && negb (starts_with (S_ "=") t).
Definition tok_null (t : str) : bool := str_eqb t (S_ ".") || str_eqb t (S_ "*") || str_eqb t (S_ "!").
Definition tok_nonnull_data (t : str) : bool := tok_data t && negb (tok_null t).
Definition tok_local_comment (t : str) : bool := starts_with (S_ "!") t && negb (starts_with (S_ "!!") t).
(** [token.isLocalComment and token.isNull] (humdrumfile.py:1533). *)
Definition empty_comment (t : itok) : bool := tok_local_comment (i_text t) && tok_null (i_text t).

(** [FakeRestToken] (humdrumtoken.py:65-74): duration and offset in the measure. *)
Inductive item := Real (t : itok) | Fake (dur off : Q).

Definition qlt (a b : Q) : bool := negb (Qle_bool b a).
Definition qmax0 (a : Q) : Q := if Qle_bool 0 a then a else 0%Q.

(** [makeFakeRestTokens] (humdrumfile.py:1580-1593).  The split never runs out
    of fuel (C38_split). *)
Fixpoint fakes_at (off : Q) (ds : list Q) : list item :=
  match ds with [] => [] | d :: ds' => Fake d off :: fakes_at (off + d)%Q ds' end.
Definition makeFakeRestTokens (gap off : Q) : list item :=
  match getPowerOfTwoQuarterLengthsWithDotsAddingTo gap with
  | Some ds => fakes_at off ds
  | None => []
  end.

(** [_findLastNonNullDataToken] (humdrumfile.py:1596-1608). *)
Fixpoint last_data_from (l : list item) : option itok :=
  match l with
  | [] => None
  | Fake _ _ :: l' => last_data_from l'
  | Real t :: l' => if tok_nonnull_data (i_text t) then Some t else last_data_from l'
  end.
Definition findLastNonNullDataToken (l : list item) : option itok := last_data_from (rev l).

(** The invisible rests put before the token [t] of a layer
    (humdrumfile.py:1550-1566). *)
Definition gap_fill (l : list item) (t : itok) : list item :=
  if qlt 0 (i_start t) then
    match findLastNonNullDataToken l with
    | None => []
    | Some p =>
        let prevEnd := (i_start p + qmax0 (i_dur p))%Q in
        let gap := (i_start t - prevEnd)%Q in
        if qlt 0 gap then makeFakeRestTokens gap (i_bar t - gap)%Q else []
    end
  else [].

(** [_calculateStaffStartsIndexByTrack] (humdrumfile.py:12511-12517): [staves]
    are the tracks of the staves in order; a later staff overwrites. *)
Fixpoint index_from (i : nat) (staves : list nat) (track : nat) (found : option nat) : option nat :=
  match staves with
  | [] => found
  | s :: staves' => index_from (S i) staves' track (if s =? track then Some i else found)
  end.
Definition staffIndex (staves : list nat) (track : nat) : option nat := index_from 0 staves track None.

Fixpoint upd_nth {A} (i : nat) (v : A) (l : list A) : list A :=
  match l, i with
  | [], _ => []
  | _ :: l', O => v :: l'
  | x :: l', S i' => x :: upd_nth i' v l'
  end.
(** [if len(output[staffIndex]) < layerIndex + 1: output[staffIndex].append([])]. *)
Definition ensure (s li : nat) (out : list (list (list item))) : list (list (list item)) :=
  if length (nth s out []) <? li + 1 then upd_nth s (nth s out [] ++ [[]]) out else out.

Definition same_track (last : option nat) (t : itok) : bool :=
  match last with Some n => n =? i_track t | None => false end.

(** The first pass over the tokens of a line (humdrumfile.py:1490-1507).  Index
    -1, for a token that is in no staff, is the last one in python. *)
Fixpoint pre_toks (staves : list nat) (toks : list itok) (last : option nat) (li : nat)
    (out : list (list (list item))) : list (list (list item)) :=
  match toks with
  | [] => out
  | t :: toks' =>
      if negb (i_staff t) then pre_toks staves toks' last li out
      else if negb (same_track last t) then pre_toks staves toks' (Some (i_track t)) 0 out
      else
        let s := match staffIndex staves (i_track t) with Some s => s | None => length out - 1 end in
        pre_toks staves toks' last (li + 1) (ensure s (li + 1) out)
  end.
(** The first pass over the lines (humdrumfile.py:1476-1507): [prev] is the line
    before, if there is one in the measure. *)
Fixpoint pre_lines (staves : list nat) (prev : option str) (lines : list iline) (out : list (list (list item)))
  : list (list (list item)) :=
  match lines with
  | [] => out
  | l :: ls =>
      let skip := match prev with
                  | Some p => isDataLine (il_text l) && isDataLine p
                  | None => false
                  end in
      pre_lines staves (Some (il_text l)) ls
        (if skip || negb (hasSpines (il_text l)) then out else pre_toks staves (il_toks l) None 0 out)
  end.

(** The second pass over the tokens of a line (humdrumfile.py:1517-1568).
    [None]: IndexError. *)
Fixpoint put_toks (staves : list nat) (toks : list itok) (last : option nat) (li : nat)
    (out : list (list (list item))) : option (list (list (list item))) :=
  match toks with
  | [] => Some out
  | t :: toks' =>
      if i_track t <? 1 then put_toks staves toks' last li out
      else match staffIndex staves (i_track t) with
           | None => put_toks staves toks' last li out
           | Some s =>
               let li' := if same_track last t then li + 1 else 0 in
               if empty_comment t then put_toks staves toks' (Some (i_track t)) li' out
               else
                 let out' := ensure s li' out in
                 match nth_error (nth s out' []) li' with
                 | None => None
                 | Some l =>
                     put_toks staves toks' (Some (i_track t)) li'
                       (upd_nth s (upd_nth li' (l ++ gap_fill l t ++ [Real t]) (nth s out' [])) out')
                 end
           end
  end.
Fixpoint put_lines (staves : list nat) (lines : list iline) (out : list (list (list item)))
  : option (list (list (list item))) :=
  match lines with
  | [] => Some out
  | l :: ls =>
      if negb (hasSpines (il_text l)) then put_lines staves ls out
      else match put_toks staves (il_toks l) None 0 out with
           | None => None
           | Some out' => put_lines staves ls out'
           end
  end.

(** [_generateStaffLayerTokensForMeasure] (humdrumfile.py:1454-1577) on the
    lines of a measure, first and last included. *)
Definition layerTokens (staves : list nat) (lines : list iline) : option (list (list (list item))) :=
  put_lines staves lines (pre_lines staves None lines (map (fun _ => []) staves)).

(** The rests at the start of a voice that begins in the middle of a measure
    (humdrumfile.py, _fillContentsOfLayer, 1952-1972). *)
Definition voiceItems (l : list item) : list item :=
  match l with
  | [] => []
  | x :: _ =>
      let off := match x with
                 | Real t => if starts_with (S_ "=") (i_text t) then 0%Q else i_bar t
                 | Fake _ off => off
                 end in
      if qlt 0 off then makeFakeRestTokens off 0%Q ++ l else l
  end.
