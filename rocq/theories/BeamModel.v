(** Beams: the letters written for a note's beams, and the grouping of notes into
    beams when a layer is read. *)
From Coq Require Export String Ascii List NArith ZArith Bool Arith.
Export ListNotations.
From Verif Require Export PyStr.
Open Scope list_scope.

(** music21's beam.Beam: type and, for 'partial', direction. *)
Inductive beam := BStart | BStop | BContinue | BPartialLeft | BPartialRight | BPartialNone.

Definition is_start (b : beam) : bool := match b with BStart => true | _ => false end.
Definition is_stop (b : beam) : bool := match b with BStop => true | _ => false end.
Definition is_left (b : beam) : bool := match b with BPartialLeft => true | _ => false end.
Definition is_right (b : beam) : bool := match b with BPartialRight => true | _ => false end.

(** converter21/humdrum/m21convert.py lines 2875-2902,
    _getHumdrumBeamStringFromM21Beams: the loop counts, the letters follow. *)
Fixpoint count_if (p : beam -> bool) (bs : list beam) : nat :=
  match bs with
  | [] => 0
  | b :: bs' => if p b then S (count_if p bs') else count_if p bs'
  end.

Definition getHumdrumBeamString (bs : list beam) : str :=
  rep "J" (count_if is_stop bs) ++ rep "k" (count_if is_left bs)
  ++ rep "K" (count_if is_right bs) ++ rep "L" (count_if is_start bs).

(** A layer's items as _analyzeLayerBeams sees them (humdrumfile.py lines
    4266-4281): tokens that are skipped (fake rests, non-data tokens, null
    tokens) and data tokens, grace or not, with their text. *)
Inductive item :=
  | Skipped
  | Grace (text : str)
  | Plain (text : str).

Definition net (text : str) : Z := (Z.of_nat (count_char "L" text) - Z.of_nat (count_char "J" text))%Z.

(** humdrumfile.py lines 4259-4315: the running states.  The loop variables are
    the two lists so far (newest last; here only their last elements matter),
    lastBeamState/lastGBeamState and the two "went negative" flags.  [first] is
    [i = 0]; [pb], [pg] are beamState[i - 1], gbeamState[i - 1]. *)
Record bstate := mkB {
  b_first : bool; b_pb : Z; b_pg : Z; b_lastb : Z; b_lastg : Z; b_negb : bool; b_negg : bool }.

Definition b0 : bstate := mkB true 0 0 0 0 false false.

Definition step (st : bstate) (x : item) : bstate * (Z * Z) :=
  match x with
  | Skipped =>
      (mkB false (b_lastb st) (b_lastg st) (b_lastb st) (b_lastg st) (b_negb st) (b_negg st),
       (b_lastb st, b_lastg st))
  | Grace text | Plain text =>
      let grace := match x with Grace _ => true | _ => false end in
      let b := if grace then 0%Z else net text in
      let g := if grace then net text else 0%Z in
      let lastb := if grace then b_lastb st else b in
      let lastg := if grace then g else b_lastg st in
      let b' := if b_first st then b else (b + b_pb st)%Z in
      let g' := if b_first st then g else (g + b_pg st)%Z in
      let lastb' := if b_first st then lastb else b' in
      let lastg' := if b_first st then lastg else g' in
      (mkB false b' g' lastb' lastg' (b_negb st || (b' <? 0)%Z) (b_negg st || (g' <? 0)%Z), (b', g'))
  end.

Fixpoint states (st : bstate) (xs : list item) : bstate * list (Z * Z) :=
  match xs with
  | [] => (st, [])
  | x :: xs' =>
      let (st1, o) := step st x in
      let (st2, os) := states st1 xs' in (st2, o :: os)
  end.

(** humdrumfile.py lines 4317-4339: state list to beam numbers.  [prev] is
    beamState[i - 1], absent for the first. *)
Fixpoint number (c : nat) (prev : option Z) (ss : list Z) : list nat :=
  match ss with
  | [] => []
  | s :: ss' =>
      if negb (s =? 0)%Z then c :: number c (Some s) ss'
      else match prev with
           | Some p => if negb (p =? 0)%Z then c :: number (S c) (Some s) ss'
                       else 0 :: number c (Some s) ss'
           | None => 0 :: number c (Some s) ss'
           end
  end.

(** humdrumfile.py lines 4341-4355: everything is dropped when the beams do not
    balance.  An empty layer raises ([beamState[-1]]): [None].  The secondary
    breaks (lines 4357-4361) are not modelled. *)
Definition finish (neg : bool) (ss : list Z) : list nat :=
  let nums := number 1 None ss in
  if neg || negb (last ss 0 =? 0)%Z then map (fun _ => 0) nums else nums.

Definition analyzeLayerBeams (xs : list item) : option (list nat * list nat) :=
  match xs with
  | [] => None
  | _ =>
      let (st, os) := states b0 xs in
      Some (finish (b_negb st) (map fst os), finish (b_negg st) (map snd os))
  end.
