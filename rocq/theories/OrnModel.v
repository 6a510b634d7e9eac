(** Trills, mordents, turns and fermatas in Humdrum files: how they are written
    behind a note (converter21/humdrum/m21convert.py), which neighbour notes the
    accidental analysis finds for them (converter21/humdrum/humdrumfilecontent.py)
    and how they are read again (converter21/humdrum/humdrumfile.py).

    Modelled: the expression part of the text of a note, the layout parameters
    that go with it, the readers of single notes and chords.  Simplified: a token
    is the list of its subtokens; layout parameters are triples of category, key
    and value (their text is the subject of LayoutModel.v); a pitch is a
    diatonic position (7 per octave, C0 = 0) with an alteration in semitones; the
    spanners' question [expr.isFirst(note)] is a field of the expression.  Not
    modelled: where a wavy line ends (its start is), quarter tones. *)
From Coq Require Import List ZArith Ascii String Bool Lia.
From Verif Require Import PyStr PitchModel ClefModel AccidModel.
Import ListNotations.
Local Open Scope Z_scope.
Local Open Scope bool_scope.
Local Open Scope list_scope.

(** ** What is written *)

(** An ornamental pitch: position, alteration, and whether its accidental is
    displayed ([None]: there is no accidental object, and the alteration is 0). *)
Record opitch := OP { op_pos : Z; op_alter : Z; op_shown : option bool }.

Inductive orn :=
| Trill (p : opitch)                               (* also InvertedTrill: p is below *)
| Mordent (p : opitch)                             (* Mordent: p below; InvertedMordent: p above *)
| Turn (inverted delayed : bool) (upper lower : opitch).

Inductive expr :=
| EOrn (o : orn)
| ETremolo (text : str)                            (* _getHumdrumStringFromTremolo, see TremoloModel.v *)
| ETrillExt (isFirst : bool)
| EFermata (upright : bool)
| EArpeggio
| EArpeggioSpanner (sameMeasure : bool)
| EOther.

Definition layout := (str * str * str)%type.       (* category, key, value *)

(** music21's [accidentalNameToModifier] (pitch.py) on the names of whole
    numbers of semitones. *)
Definition accid_modifier (alter : Z) : str :=
  if alter >=? 0 then rep "#" (Z.to_nat alter) else rep "-" (Z.to_nat (- alter)).

(** Semitones above C0 of a position, and of an altered pitch. *)
Definition pos_semitones (d : Z) : Z :=
  12 * (d / 7) + nth (Z.to_nat (d mod 7)) [0; 2; 4; 5; 7; 9; 11] 0.

(** m21convert.py:2681-2688, 2713-2720, 2744-2758: a displayed accidental that
    has a modifier is written as a layout parameter. *)
Definition acc_layout (cat key : string) (p : opitch) : list layout :=
  match op_shown p with
  | Some true =>
      match accid_modifier (op_alter p) with
      | [] => []
      | m => [(S_ cat, S_ key, m)]
      end
  | _ => []
  end.

(** m21convert.py:2690-2693 and its copies: [main] is the first pitch of the note
    (position, alteration), [None] for unpitched notes. *)
Definition semitones_to (main : option (Z * Z)) (p : opitch) : Z :=
  match main with
  | None => 0
  | Some (d, a) => (pos_semitones (op_pos p) + op_alter p) - (pos_semitones d + a)
  end.

(** m21convert.py:2665-2815, [_getHumdrumStringAndLayoutsFromM21TrillMordentTurn]. *)
Definition write_orn (main : option (Z * Z)) (o : orn) : str * list layout :=
  match o with
  | Trill p =>
      let n := semitones_to main p in
      (if n =? 0 then S_ "t"
       else if Z.abs n <=? 1 then (if n >? 0 then S_ "t" else S_ "t<")
       else (if n >? 0 then S_ "T" else S_ "T<"), acc_layout "TR" "acc" p)
  | Mordent p =>
      let n := semitones_to main p in
      (if n =? 0 then S_ "t"
       else if Z.abs n <=? 1 then (if n >? 0 then S_ "m" else S_ "w")
       else (if n >? 0 then S_ "M" else S_ "W"), acc_layout "MOR" "acc" p)
  | Turn inverted delayed upper lower =>
      let prefix := if inverted then (if delayed then S_ "$" else S_ "s$")
                    else (if delayed then S_ "S" else S_ "sS") in
      let ch p := if Z.abs (semitones_to main p) <=? 1 then S_ "s" else S_ "S" in
      (prefix ++ ch upper ++ ch lower, acc_layout "TURN" "uacc" upper ++ acc_layout "TURN" "lacc" lower)
  end.

(** m21convert.py:2595-2644, one turn of the loop. *)
Definition write_expr (main : option (Z * Z)) (e : expr) : str * list layout :=
  match e with
  | EOrn o => write_orn main o
  | ETremolo s => (s, [])
  | ETrillExt isFirst => (if isFirst then [] else S_ "TTT", [])
  | EFermata upright => (S_ ";" ++ (if upright then S_ "<" else []), [])
  | EArpeggio => (S_ ":", [])
  | EArpeggioSpanner same => (if same then S_ ":" else S_ "::", [])
  | EOther => ([], [])
  end.

(** m21convert.py:2579-2650.  The result of the [re.sub] of line 2648, which was
    to turn a trill into a trill with wavy line, is dropped. *)
Definition write_exprs (main : option (Z * Z)) (es : list expr) : str * list layout :=
  (concat (map (fun e => fst (write_expr main e)) es), concat (map (fun e => snd (write_expr main e)) es)).

(** ** The accidental analysis *)

(** What is recorded for a subtoken: the alteration and whether it is to be
    shown (.vis) or only sounds (.ges). *)
Definition auto := option (Z * bool).
Record autos := Autos { a_trill : auto; a_mordent : auto; a_upper : auto; a_lower : auto }.
Definition no_autos := Autos None None None None.

(** humdrumfilecontent.py:1252-1268 and its copies: the neighbour at [step] in
    base 40; [dst] are the alterations in force at the positions. *)
Definition auto_of (dst : Z -> Z) (b40 step : Z) : auto :=
  let e := b40 + step in
  let a := base40ToAccidental e in
  Some (a, negb (dst (base40ToDiatonic e) =? a)).

(** humdrumfilecontent.py:1352-1460: turns; '$' has the lower step first. *)
Definition turn_autos (dst : Z -> Z) (b40 : Z) (s : str) (inverted : bool) : autos :=
  let loc := find_char (if inverted then "$" else "S")%char s in
  let first := turn_step (char_at s (loc + 1)) in
  let second := turn_step (char_at s (loc + 2)) in
  let lowerInt0 := - (if inverted then first else second) in
  let upperInt0 := if inverted then second else first in
  let d := base40ToDiatonic b40 in
  let lowerAccid := dst (d - 1) in
  let upperAccid := dst (d + 1) in
  let lowerInt := if lowerInt0 =? 0 then base7ToBase40 (d - 1) + lowerAccid - b40 else lowerInt0 in
  let upperInt := if upperInt0 =? 0 then base7ToBase40 (d + 1) + upperAccid - b40 else upperInt0 in
  let uacc := base40ToAccidental (b40 + upperInt) in
  let bacc := base40ToAccidental (b40 + lowerInt) in
  Autos None None (Some (uacc, negb (uacc =? upperAccid))) (Some (bacc, negb (bacc =? lowerAccid))).

(** humdrumfilecontent.py:1193-1460: the ornament part of the analysis of one
    subtoken (the rest is AccidModel.v).  [chord]: there are several subtokens. *)
Definition analyse (dst : Z -> Z) (chord : bool) (subtok : str) : autos :=
  let s0 := if chord then replace (S_ "r") (S_ "R") subtok else subtok in
  let b40 := kernToBase40 s0 in
  if kernToBase7 s0 <? 0 then no_autos
  else
    let s := if negb (contains (S_ "yy") s0) && contains (S_ "ny") s0
             then replace (S_ "ny") [] s0 else s0 in
    if (char_in "_" s || char_in "]" s)
       && negb (contains (S_ "#X") s) && negb (contains (S_ "-X") s) && negb (char_in "n" s)
    then no_autos
    else if char_in "t" s then Autos (auto_of dst b40 5) None None None
    else if char_in "T" s then Autos (auto_of dst b40 6) None None None
    else if char_in "M" s then Autos None (auto_of dst b40 6) None None
    else if char_in "m" s then Autos None (auto_of dst b40 5) None None
    else if char_in "W" s then Autos None (auto_of dst b40 (-6)) None None
    else if char_in "w" s then Autos None (auto_of dst b40 (-5)) None None
    else if char_in "$" s then turn_autos dst b40 s true
    else if char_in "S" s then turn_autos dst b40 s false
    else no_autos.

(** ** What is read *)

(** An accidental of music21: alteration and displayStatus. *)
Definition accidental := option (Z * bool).

Inductive rexpr :=
| RTrill (acc : accidental) (placement : option bool) (wavy : bool)
| RFermata (upright : bool) (placement : option bool)
| RMordent (upper : bool) (acc : accidental) (placement : option bool)
| RTurn (inverted delayed : bool) (upper lower : accidental) (placement : option bool).

(** humdrumfile.py:6713-6726, [_LAYOUT_ACCIDENTAL_TO_ACCIDENTAL_NUM_STR], with
    _computeM21Accidental (lines 6980-6993) applied. *)
Definition layout_accidentals : list (str * Z) :=
  [ (S_ "#", 1); (S_ "-", -1); (S_ "n", 0); (S_ "n-", -1); (S_ "n#", 1); (S_ "--", -2);
    (S_ "##", 2); (S_ "x", 2); (S_ "#x", 3); (S_ "x#", 3); (S_ "###", 3); (S_ "---", -3) ].

(** humdrumtoken.py:2828-2888, [layoutParameter]: the first parameter set of the
    category that has the key; the empty string if there is none. *)
Fixpoint layout_parameter (ls : list layout) (cat key : str) : str :=
  match ls with
  | [] => []
  | (c, k, v) :: ls' => if str_eqb c cat && str_eqb k key then v else layout_parameter ls' cat key
  end.

(** humdrumfile.py:6768-6801, 7116-7147, 7243-7296: the accidental of the
    analysis, replaced by that of the layout parameter.  Trills have no special
    case for [true] ([known_true = false]); there it is an unknown accidental. *)
Definition layout_accid (known_true : bool) (a : auto) (text : str) : accidental :=
  if str_eqb text [] then a
  else if known_true && str_eqb text (S_ "true") then a
  else if str_eqb text (S_ "none") || str_eqb text (S_ "false") then
    match a with Some (z, _) => Some (z, false) | None => None end
  else match assoc_str text layout_accidentals with Some z => Some (z, true) | None => None end.

(** The signifiers of the file for above and below (single characters). *)
Definition is_sig (sig : option ascii) (c : option ascii) : bool :=
  match sig, c with Some x, Some y => Ascii.eqb x y | _, _ => false end.

(** humdrumfile.py:6822-6829, 7319-7327: the character behind the ornament; below
    is tested last. *)
Definition place_at (above below : option ascii) (text : str) (i : nat) : option bool :=
  if is_sig below (nth_error text (S i)) then Some false
  else if is_sig above (nth_error text (S i)) then Some true
  else None.

(** humdrumfile.py:6742-6752: the first 't' or 'T': its index, and the number of
    spaces before it. *)
Fixpoint find_trill (i k : nat) (s : str) : option (nat * nat) :=
  match s with
  | [] => None
  | c :: s' =>
      if Ascii.eqb c " " then find_trill (S i) (S k) s'
      else if Ascii.eqb c "t" || Ascii.eqb c "T" then
        match s' with
        | c' :: _ => if Ascii.eqb c' "t" || Ascii.eqb c' "T" then Some (S i, k) else Some (i, k)
        | [] => Some (i, k)
        end
      else find_trill (S i) k s'
  end.

(** A token: its subtokens, separated by spaces in the text.  [an k]: what the
    analysis recorded for subtoken [k]. *)
Definition token_text (subs : list str) : str := join (S_ " ") subs.

(** humdrumfile.py:6733-6835, [_addTrill] up to the start of the wavy line. *)
Definition read_trill (above below : option ascii) (an : nat -> autos) (ls : list layout) (text : str)
  : list rexpr :=
  match find_trill 0 0 text with
  | None => []
  | Some (tpos, k) =>
      if contains (S_ "TTT") text || contains (S_ "ttt") text then []
      else
        [RTrill (layout_accid false (a_trill (an k)) (layout_parameter ls (S_ "TR") (S_ "acc")))
                (place_at above below text tpos)
                (contains (S_ "TT") text || contains (S_ "tt") text)]
  end.

(** humdrumfile.py:7351-7360, [_getDirection]. *)
Definition direction (above below : option ascii) (target : ascii) (text : str) : option bool :=
  let has sig := match sig with Some c => contains [target; c] text | None => false end in
  if has above then Some true else if has below then Some false else None.

(** humdrumfile.py:6907-6951, [_addFermata] on notes. *)
Definition read_fermata (above below : option ascii) (text : str) : list rexpr :=
  if negb (char_in ";" text) then []
  else if contains (S_ "yy") text then []
  else if contains (S_ ";;") text then [RFermata true None; RFermata false (Some false)]
  else match direction above below ";" text with
       | Some false => [RFermata false (Some false)]
       | Some true => [RFermata true (Some true)]
       | None => [RFermata true None]
       end.

(** humdrumfile.py:7043-7066: the first mordent of a subtoken with the marks
    behind it: a run of wWmM and then a run of y, above and below signs. *)
Definition is_mordent (c : ascii) : bool := char_in c (S_ "wWmM").
Definition is_mark (above below : option ascii) (c : ascii) : bool :=
  Ascii.eqb c "y" || is_sig above (Some c) || is_sig below (Some c).
Definition find_mordent (above below : option ascii) (s : str) : option str :=
  match snd (span (fun c => negb (is_mordent c)) s) with
  | [] => None
  | rest =>
      let (ms, rest') := span is_mordent rest in
      Some (ms ++ fst (span (is_mark above below) rest'))
  end.

(** humdrumfile.py:7053-7068: index, mordent string and pitch of the subtokens with a visible mordent. *)
Fixpoint mordents_of (above below : option ascii) (k : nat) (subs : list str) : list (nat * str * Z) :=
  match subs with
  | [] => []
  | s :: subs' =>
      let tl := mordents_of above below (S k) subs' in
      if char_in "r" s then tl
      else match find_mordent above below s with
           | None => tl
           | Some m => if char_in "y" m then tl else (k, m, kernToBase40 s) :: tl
           end
  end.

(** humdrumfile.py:7075-7105: default placements ([true] above). *)
Definition default_place (subtrack : nat) (ms : list (nat * str * Z)) (i : nat) : bool :=
  if negb (Nat.eqb subtrack 0) then Nat.odd subtrack
  else match ms with
       | [(_, _, p); (_, _, q)] =>
           let firstHighest := p =? Z.max p q in
           if Nat.eqb i 0 then firstHighest else negb firstHighest
       | _ => true
       end.

(** humdrumfile.py:7107-7178: one mordent. *)
Definition make_mordent (above below : option ascii) (an : nat -> autos) (ls : list layout)
    (place : bool) (m : nat * str * Z) : rexpr :=
  let '(k, mstr, _) := m in
  let lower := match mstr with c :: _ => char_in c (S_ "wW") | [] => false end in
  let has sig := match sig with Some c => char_in c mstr | None => false end in
  RMordent (negb lower)
           (layout_accid true (a_mordent (an k)) (layout_parameter ls (S_ "MOR") (S_ "acc")))
           (Some (if has below then false else if has above then true else place)).

(** humdrumfile.py:7026-7178, [_addMordent]. *)
Definition read_mordents (above below : option ascii) (subtrack : nat) (an : nat -> autos)
    (ls : list layout) (subs : list str) : list rexpr :=
  let ms := mordents_of above below 0 subs in
  map (fun im => make_mordent above below an ls (default_place subtrack ms (fst im)) (snd im))
      (combine (seq 0 (length ms)) ms).

(** humdrumfile.py:7207-7340, [_addTurn].  [None]: the index error of line 7236
    cannot happen, as the text of one character 's' returns before. *)
Definition is_turn_char (c : ascii) : bool := Ascii.eqb c "s" || Ascii.eqb c "S" || Ascii.eqb c "$".
Definition read_turn (above below : option ascii) (an : nat -> autos) (ls : list layout) (text : str)
  : list rexpr :=
  let (before, rest) := span (fun c => negb (is_turn_char c)) text in
  let (turnStr, after) := span is_turn_char rest in
  match turnStr with
  | [] => []
  | c0 :: more =>
      if str_eqb turnStr (S_ "s") then []
      else
        let delayed := negb (Ascii.eqb c0 "s") in
        let inverted := if negb delayed
                        then match more with c1 :: _ => Ascii.eqb c1 "$" | [] => false end
                        else Ascii.eqb c0 "$" in
        let lower := layout_accid true (a_lower (an 0%nat)) (layout_parameter ls (S_ "TURN") (S_ "lacc")) in
        let upper := layout_accid true (a_upper (an 0%nat)) (layout_parameter ls (S_ "TURN") (S_ "uacc")) in
        let flip := str_eqb (layout_parameter ls (S_ "TURN") (S_ "facc")) (S_ "true") in
        [RTurn inverted delayed (if flip then lower else upper) (if flip then upper else lower)
               (place_at above below text (length before + length turnStr - 1))]
  end.

(** humdrumfile.py:6694-6711, [_addOrnaments]; the letters are looked for in the
    lower-case text. *)
Definition read_ornaments (above below : option ascii) (subtrack : nat) (dst : nat -> Z -> Z)
    (ls : list layout) (subs : list str) : list rexpr :=
  let text := token_text subs in
  let lower := map to_lower text in
  let an k := match nth_error subs k with
              | Some s => analyse (dst k) (Nat.ltb 1 (length subs)) s
              | None => no_autos
              end in
  (if char_in "t" lower then read_trill above below an ls text else [])
  ++ (if char_in ";" lower then read_fermata above below text else [])
  ++ (if char_in "w" lower || char_in "m" lower then read_mordents above below subtrack an ls subs else [])
  ++ (if char_in "s" lower || char_in "$" lower then read_turn above below an ls text else []).
