(** Articulations: the marks written into a note's token, and how they are read
    (converter21/humdrum/m21convert.py). *)
From Verif Require Import PyStr.

(** The articulations of the two tables (m21convert.py:181-205); a caesura is written with a
    user signifier and is not modelled. *)
Inductive artic := Staccato | Staccatissimo | Tenuto | StrongAccent | Accent | BreathMark | Harmonic | UpBow | DownBow | Pizzicato.
(** [Articulation.placement]. *)
Inductive placement := PNone | PAbove | PBelow.

Definition quote_char : ascii := "034"%char.
(** [m21ArticulationClassNameToHumdrumArticulationString] (m21convert.py:194-205). *)
Definition artic_str (a : artic) : str :=
  match a with
  | Staccato => S_ "'"
  | Staccatissimo => S_ "`"
  | Tenuto => S_ "~"
  | StrongAccent => S_ "^^"
  | Accent => S_ "^"
  | BreathMark => S_ ","
  | Harmonic => S_ "o"
  | UpBow => S_ "v"
  | DownBow => S_ "u"
  | Pizzicato => [quote_char]
  end.
(** [humdrumArticulationStringToM21ArticulationClassName] (m21convert.py:181-192) has the same
    pairs, in stacking order. *)
Definition stacking : list artic := [Staccato; Staccatissimo; Tenuto; StrongAccent; Accent; BreathMark; Harmonic; UpBow; DownBow; Pizzicato].

(** [_getHumdrumStringFromM21Articulations] (m21convert.py:2538-2561). *)
Definition placement_str (p : placement) : str := match p with PNone => [] | PAbove => S_ ">" | PBelow => S_ "<" end.
Definition write_artic (a : artic * placement) : str := artic_str (fst a) ++ placement_str (snd a).
Definition write_artics (l : list (artic * placement)) : str := concat (map write_artic l).

(** The dictionaries [articFound], [articIsGestural] and [articPlacement] (m21convert.py:465-468),
    which always have the same keys. *)
Definition found := str -> option (bool * placement).
Definition no_artics : found := fun _ => None.
Definition note_artic (k : str) (v : bool * placement) (d : found) : found := fun x => if str_eqb x k then Some v else d x.

(** What follows an articulation decides on its placement and on whether it is hidden
    (m21convert.py:525-546).  Signifiers are single characters ([None]: no such signifier). *)
Definition is_char (s : option ascii) (c : option ascii) : bool :=
  match s, c with Some x, Some y => Ascii.eqb x y | _, _ => false end.
Definition gestural (above below : option ascii) (rest : str) : bool :=
  let ch1 := nth_error rest 0 in let ch2 := nth_error rest 1 in let ch3 := nth_error rest 2 in
  let y := Some "y"%char in
  if is_char y ch1 && negb (is_char y ch2) then true
  else if is_char above ch1 && is_char y ch2 && negb (is_char y ch3) then true
  else is_char below ch1 && is_char y ch2 && negb (is_char y ch3).
Definition place (above below : option ascii) (rest : str) : placement :=
  let ch1 := nth_error rest 0 in
  if is_char above ch1 then PAbove else if is_char below ch1 then PBelow else PNone.
(** The loop over the token (m21convert.py:477-546). *)
Fixpoint scan_artics (above below : option ascii) (s : str) (d : found) : found :=
  match s with
  | [] => d
  | ch :: r =>
      if is_digit ch then scan_artics above below r d
      else
        let one := note_artic [ch] (gestural above below r, place above below r) d in
        match r with
        | ch1 :: r' =>
            if Ascii.eqb ch "^" && Ascii.eqb ch1 "^" then scan_artics above below r' (note_artic (S_ "^^") (gestural above below r', place above below r') d)
            else if Ascii.eqb ch "'" && Ascii.eqb ch1 "'" then scan_artics above below r' (note_artic (S_ "`") (gestural above below r', place above below r') d)
            else scan_artics above below r one
        | [] => scan_artics above below r one
        end
  end.
(** [m21Articulations] (m21convert.py:454-594); hidden articulations are left out. *)
Definition pick (d : found) (a : artic) : list (artic * placement) :=
  match d (artic_str a) with Some (false, p) => [(a, p)] | _ => [] end.
Definition read_artics (above below : option ascii) (token : str) : list (artic * placement) :=
  flat_map (pick (scan_artics above below token no_artics)) stacking.
