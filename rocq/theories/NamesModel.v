(** Models of small naming functions of m21utilities.py: xml ids, role names,
    staff-position names. *)
From Verif Require Import PyStr.

(** [_XMLID_BASE_ALPHABET[d]] (m21utilities.py:3894-3896): the letters a to z. *)
Definition letter (d : N) : ascii := ascii_of_N (97 + d).

(** The [while] loop of [alphabet_encode] (m21utilities.py:3914-3918). *)
Fixpoint encode_loop (fuel : nat) (n : N) (encoded : str) : str :=
  match fuel with
  | O => encoded
  | S f => if (n =? 0)%N then encoded else encode_loop f (n / 26)%N (letter (n mod 26) :: encoded)
  end.
(** [alphabet_encode] (m21utilities.py:3910-3918). *)
Definition alphabet_encode (n : N) : str :=
  if (n =? 0)%N then [letter 0] else encode_loop (N.size_nat n) n [].

(** [makeXmlIdFrom] (m21utilities.py:3907-3941) on an integer.  [min_id] is
    [m21.defaults.minIdNumberToConsiderMemoryLocation], a non-negative number:
    for negative identifiers [alphabet_encode] is never reached. *)
Definition makeXmlIdFrom (min_id : N) (identifier : Z) (prefix : str) : str :=
  let output := if (identifier <? Z.of_N min_id)%Z then show_Z identifier
                else alphabet_encode (Z.to_N identifier) in
  match prefix with
  | [] => output
  | _ => if starts_with (map to_lower prefix) (map to_lower output) then output
         else prefix ++ S_ "-" ++ output
  end.

(** [spaceDelimitedToCamelCase] (m21utilities.py:2694-2708). *)
Fixpoint to_camel (capitalizeNext : bool) (text : str) : str :=
  match text with
  | [] => []
  | ch :: rest =>
      if Ascii.eqb ch " " then to_camel true rest
      else (if capitalizeNext then to_upper ch else to_lower ch) :: to_camel false rest
  end.
Definition spaceDelimitedToCamelCase (text : str) : str := to_camel false text.

(** [camelCaseToSpaceDelimited] (m21utilities.py:2710-2719). *)
Fixpoint camelCaseToSpaceDelimited (text : str) : str :=
  match text with
  | [] => []
  | ch :: rest =>
      if is_upper ch then " "%char :: to_lower ch :: camelCaseToSpaceDelimited rest
      else ch :: camelCaseToSpaceDelimited rest
  end.

(** [_STEP_TO_PITCH_CLASS], [_PITCH_CLASS_TO_STEP] (m21utilities.py:1507-1525). *)
Definition step_names : list ascii := ["C"; "D"; "E"; "F"; "G"; "A"; "B"]%char.
Fixpoint index_of (c : ascii) (l : list ascii) : option nat :=
  match l with
  | [] => None
  | x :: l' => if Ascii.eqb c x then Some 0 else option_map S (index_of c l')
  end.

(** [pitchToBase7] (m21utilities.py:1527-1531) on a step and an octave; [None]:
    KeyError. *)
Definition pitchToBase7 (step : ascii) (octave : Z) : option Z :=
  option_map (fun pc => (Z.of_nat pc + 7 * octave)%Z) (index_of step step_names).

(** [base7ToDisplayName] (m21utilities.py:1533-1539). *)
Definition base7ToDisplayName (base7 : Z) : str :=
  nth (Z.to_nat (base7 mod 7)) step_names "?"%char :: show_Z (base7 / 7).

(** [splitM21PitchNameIntoNameAccidOctave] (m21utilities.py:1495-1504):
    a step, a run of minus and sharp signs, a nonempty run of digits at the start; greedy. *)
Definition is_accid (c : ascii) : bool := Ascii.eqb c "-" || Ascii.eqb c "#".
Definition splitM21PitchNameIntoNameAccidOctave (name : str) : str * str * str :=
  match name with
  | c :: rest =>
      if existsb (Ascii.eqb c) step_names then
        let (acc, rest') := span is_accid rest in
        let (oct, _) := span is_digit rest' in
        match oct with
        | [] => (name, S_ "n", [])
        | _ => ([c], match acc with [] => S_ "n" | _ => acc end, oct)
        end
      else (name, S_ "n", [])
  | [] => (name, S_ "n", [])
  end.
