(** Chord symbols as text: how a chord symbol is written in the notation of Harte (which
    is what both the Humdrum and the MEI export use) and how such a text is read. *)
From Coq Require Import List Ascii String Arith NArith ZArith Lia Bool.
From Verif Require Import PyStr ClefModel.
Import ListNotations.

(** ** Chord symbols of music21 *)

(** A pitch name: the step (0 is C, 6 is B) and the alteration in semitones. *)
Record pname := PName { p_step : nat; p_alter : Z }.
Inductive mtype := Add | Subtract | Alter.
(** A [ChordStepModification]: its type, its degree and the semitones of its interval, if
    it has one. *)
Record cmod := Mod { m_type : mtype; m_degree : N; m_interval : option Z }.
(** A [ChordSymbol] that has a root: root, bass, kind and modifications. *)
Record chord := Chord { c_root : pname; c_bass : pname; c_kind : str; c_mods : list cmod }.
(** [NoChord] stands also for the chord symbols that have no pitches or no root, which are
    written like it (m21utilities.py:3362-3371). *)
Inductive csym := NoChord | Sym (c : chord).

Definition letters : str := S_ "CDEFGAB".
Definition letter (i : nat) : ascii := nth i letters "C"%char.
(** Accidentals: sharps, or as many of the given character as there are flats. *)
Definition accid (flat : ascii) (a : Z) : str := if (0 <? a)%Z then rep "#"%char (Z.to_nat a) else rep flat (Z.to_nat (- a)).
(** [Pitch.name]. *)
Definition pitch_name (p : pname) : str := letter (p_step p) :: accid "-"%char (p_alter p).

(** ** Tables *)

(** m21utilities.py:3103-3171. *)
Definition kind_to_shorthand : list (str * (str * str)) :=
  map (fun '(k, (a, b)) => (S_ k, (S_ a, S_ b)))
  [("major", ("maj", "")); ("minor", ("min", "")); ("augmented", ("aug", "")); ("diminished", ("dim", ""));
   ("dominant-seventh", ("7", "")); ("major-seventh", ("maj7", "")); ("minor-major-seventh", ("minmaj7", ""));
   ("minor-seventh", ("min7", "")); ("augmented-major-seventh", ("aug", "7")); ("augmented-seventh", ("aug", "b7"));
   ("half-diminished-seventh", ("hdim7", "")); ("diminished-seventh", ("dim7", "")); ("seventh-flat-five", ("", "3,b5,b7"));
   ("major-sixth", ("maj6", "")); ("minor-sixth", ("min6", ""));
   ("major-ninth", ("maj9", "")); ("dominant-ninth", ("9", "")); ("minor-major-ninth", ("minmaj7", "9"));
   ("minor-ninth", ("min9", "")); ("augmented-major-ninth", ("aug", "7,9")); ("augmented-dominant-ninth", ("aug", "b7,9"));
   ("half-diminished-ninth", ("hdim7", "9")); ("half-diminished-minor-ninth", ("hdim7", "b9"));
   ("diminished-ninth", ("dim7", "9")); ("diminished-minor-ninth", ("dim7", "b9"));
   ("dominant-11th", ("9", "11")); ("major-11th", ("maj9", "11")); ("minor-major-11th", ("minmaj7", "9,11"));
   ("minor-11th", ("min9", "11")); ("augmented-major-11th", ("aug", "7,9,11")); ("augmented-11th", ("aug", "b7,9,11"));
   ("half-diminished-11th", ("hdim7", "9,11")); ("diminished-11th", ("dim7", "9,11"));
   ("major-13th", ("maj9", "11,13")); ("dominant-13th", ("9", "11,13")); ("minor-major-13th", ("minmaj7", "9,11,13"));
   ("minor-13th", ("min9", "11,13")); ("augmented-major-13th", ("aug", "7,9,11,13"));
   ("augmented-dominant-13th", ("aug", "b7,9,11,13")); ("half-diminished-13th", ("hdim7", "9,11,13"));
   ("suspended-second", ("", "1,2,5")); ("suspended-fourth", ("sus4", "")); ("suspended-fourth-seventh", ("sus4", "b7"));
   ("Neapolitan", ("", "1,b2,3,b5")); ("neapolitan", ("", "1,b2,3,b5")); ("Italian", ("", "1,#4,b6"));
   ("italian", ("", "1,#4,b6")); ("French", ("", "1,2,#4,b6")); ("french", ("", "1,2,#4,b6"));
   ("German", ("", "1,b3,#4,b6")); ("german", ("", "1,b3,#4,b6")); ("pedal", ("", "1")); ("power", ("", "1,5"));
   ("Tristan", ("", "1,#4,#6,#9")); ("tristan", ("", "1,#4,#6,#9"))]%string.

(** m21utilities.py:3173-3241. *)
Definition kind_to_degrees : list (str * str) :=
  map (fun '(k, a) => (S_ k, S_ a))
  [("major", "3,5"); ("minor", "b3,5"); ("augmented", "3,#5"); ("diminished", "b3,b5");
   ("dominant-seventh", "3,5,b7"); ("major-seventh", "3,5,7"); ("minor-major-seventh", "b3,5,7");
   ("minor-seventh", "b3,5,b7"); ("augmented-major-seventh", "3,#5,7"); ("augmented-seventh", "3,#5,b7");
   ("half-diminished-seventh", "b3,b5,b7"); ("diminished-seventh", "b3,b5,bb7"); ("seventh-flat-five", "3,b5,b7");
   ("major-sixth", "3,5,6"); ("minor-sixth", "b3,5,6");
   ("major-ninth", "3,5,7,9"); ("dominant-ninth", "3,5,b7,9"); ("minor-major-ninth", "b3,5,7,9");
   ("minor-ninth", "b3,5,b7,9"); ("augmented-major-ninth", "3,#5,7,9"); ("augmented-dominant-ninth", "3,#5,b7,9");
   ("half-diminished-ninth", "b3,b5,b7,9"); ("half-diminished-minor-ninth", "b3,b5,b7,b9");
   ("diminished-ninth", "b3,b5,bb7,9"); ("diminished-minor-ninth", "b3,b5,bb7,b9");
   ("dominant-11th", "3,5,b7,9,11"); ("major-11th", "3,5,7,9,11"); ("minor-major-11th", "b3,5,7,9,11");
   ("minor-11th", "b3,5,b7,9,11"); ("augmented-major-11th", "3,#5,7,9,11"); ("augmented-11th", "3,#5,b7,9,11");
   ("half-diminished-11th", "b3,b5,b7,9,11"); ("diminished-11th", "b3,b5,bb7,9,11");
   ("major-13th", "3,5,7,9,11,13"); ("dominant-13th", "3,5,b7,9,11,13"); ("minor-major-13th", "b3,5,7,9,11,13");
   ("minor-13th", "b3,5,b7,9,11,13"); ("augmented-major-13th", "3,#5,7,9,11,13");
   ("augmented-dominant-13th", "3,#5,b7,9,11,13"); ("half-diminished-13th", "b3,b5,b7,9,11,13");
   ("suspended-second", "1,2,5"); ("suspended-fourth", "1,4,5"); ("suspended-fourth-seventh", "1,4,5,b7");
   ("Neapolitan", "1,b2,3,b5"); ("neapolitan", "1,b2,3,b5"); ("Italian", "1,#4,b6"); ("italian", "1,#4,b6");
   ("French", "1,2,#4,b6"); ("french", "1,2,#4,b6"); ("German", "1,b3,#4,b6"); ("german", "1,b3,#4,b6");
   ("pedal", "1"); ("power", "1,5"); ("Tristan", "1,#4,#6,#9"); ("tristan", "1,#4,#6,#9")]%string.

(** m21utilities.py:3243-3262. *)
Definition shorthand_to_degrees : list (str * list str) :=
  map (fun '(k, l) => (S_ k, map S_ l))
  [("maj", ["3"; "5"]); ("min", ["b3"; "5"]); ("dim", ["b3"; "b5"]); ("aug", ["3"; "#5"]);
   ("maj7", ["3"; "5"; "7"]); ("min7", ["b3"; "5"; "b7"]); ("7", ["3"; "5"; "b7"]); ("dim7", ["b3"; "b5"; "bb7"]);
   ("hdim7", ["b3"; "b5"; "b7"]); ("minmaj7", ["b3"; "5"; "7"]); ("maj6", ["3"; "5"; "6"]); ("min6", ["b3"; "5"; "6"]);
   ("9", ["3"; "5"; "b7"; "9"]); ("maj9", ["3"; "5"; "7"; "9"]); ("min9", ["b3"; "5"; "b7"; "9"]); ("sus4", ["4"; "5"])]%string.

(** ** Degrees *)

(** The class [b#-*] of m21utilities.py:3266: the letter b and the characters from the
    number sign to the asterisk. *)
Definition is_mark (c : ascii) : bool := Ascii.eqb c "b"%char || ((35 <=? nat_of_ascii c)%nat && (nat_of_ascii c <=? 42)%nat).
(** m21utilities.py:3264-3269, [_degreeInt]; None: the exception. *)
Definition degreeInt (s : str) : option N :=
  match fst (span is_digit (snd (span is_mark s))) with [] => None | ds => Some (parse_N ds) end.

(** [list.remove]; None: the exception. *)
Fixpoint remove (x : str) (l : list str) : option (list str) :=
  match l with
  | [] => None
  | y :: l' => if str_eqb x y then Some l' else match remove x l' with None => None | Some r => Some (y :: r) end
  end.

(** [sorted] by [_degreeInt], which is stable. *)
Fixpoint insert_by (k : N) (x : str) (l : list (N * str)) : list (N * str) :=
  match l with
  | [] => [(k, x)]
  | (k', y) :: l' => if (k <? k')%N then (k, x) :: l else (k', y) :: insert_by k x l'
  end.
Fixpoint keyed (l : list str) : option (list (N * str)) :=
  match l with
  | [] => Some []
  | x :: l' => match degreeInt x, keyed l' with Some k, Some r => Some ((k, x) :: r) | _, _ => None end
  end.
Definition sorted_degrees (l : list str) : option (list str) :=
  option_map (fun kl => map snd (fold_left (fun acc '(k, x) => insert_by k x acc) kl [])) (keyed l).

(** m21utilities.py:3328-3341: the degrees that are left out.  Second component: whether
    the degree was in the list. *)
Fixpoint omit_in (o : str) (degs : list str) (new : list str) (done : bool) : option (list str * bool) :=
  match degs with
  | [] => Some (new, done)
  | d :: degs' => if str_eqb o d then match remove d new with None => None | Some new' => omit_in o degs' new' true end
                  else omit_in o degs' new done
  end.
Fixpoint omit_all (omits : list str) (degs : list str) (new : list str) : option (list str) :=
  match omits with
  | [] => Some new
  | o :: os =>
      match omit_in o degs new false with
      | None => None
      | Some (new', true) => omit_all os degs new'
      | Some (new', false) =>
          match degreeInt o with None => None | Some n => omit_all os degs (new' ++ ["*"%char :: show_N n]) end
      end
  end.

(** m21utilities.py:3343-3349: the degrees that are altered; [i] is the index in the list
    of the kind.  None: an index that is not in the new list, or an unreadable degree. *)
Fixpoint set_nth (i : nat) (x : str) (l : list str) : option (list str) :=
  match i, l with
  | _, [] => None
  | O, _ :: l' => Some (x :: l')
  | S i', y :: l' => option_map (cons y) (set_nth i' x l')
  end.
Fixpoint alter_in (a : str) (i : nat) (degs new : list str) : option (list str) :=
  match degs with
  | [] => Some new
  | d :: degs' =>
      match degreeInt a, degreeInt d with
      | Some x, Some y =>
          if (x =? y)%N then match set_nth i a new with None => None | Some new' => alter_in a (S i) degs' new' end
          else alter_in a (S i) degs' new
      | _, _ => None
      end
  end.
Fixpoint alter_all (alters degs new : list str) : option (list str) :=
  match alters with
  | [] => Some new
  | a :: os => match alter_in a 0 degs new with None => None | Some new' => alter_all os degs new' end
  end.

(** m21utilities.py:3318-3356, [modifyDegrees]. *)
Definition degree_list (degrees : str) : list str := match degrees with [] => [] | _ => split_char ","%char degrees end.
Definition modifyDegrees (degrees : str) (adds omits alters : list str) : option str :=
  let l := degree_list degrees in
  match omit_all omits l l with
  | None => None
  | Some l1 =>
      match alter_all alters l l1 with
      | None => None
      | Some l2 => option_map (join [","%char]) (sorted_degrees (l2 ++ adds))
      end
  end.

(** ** Simplification *)

(** m21utilities.py:3627-3680, [simplifyChordSymbol].  None: a modification without an
    interval is asked for its semitones. *)
Definition kind_in (k : str) (l : list string) : bool := existsb (fun s => str_eqb k (S_ s)) l.
Definition simplified (k : str) (m : cmod) : option (option str) :=
  if kind_in k ["major"; "minor"; "augmented"; "diminished"; "augmented-seventh"; "augmented-major-seventh"; "minor-seventh"]%string then
    match m_type m with
    | Add =>
        if (m_degree m =? 7)%N then
          if kind_in k ["major"; "minor"; "augmented"; "diminished"]%string then
            match m_interval m with
            | None => None
            | Some s => Some
                (if str_eqb k (S_ "major") then
                   if (s =? 0)%Z then Some (S_ "major-seventh") else if (s =? -1)%Z then Some (S_ "dominant-seventh") else None
                 else if str_eqb k (S_ "minor") then
                   if (s =? 0)%Z then Some (S_ "minor-major-seventh") else if (s =? -1)%Z then Some (S_ "minor-seventh") else None
                 else if str_eqb k (S_ "augmented") then
                   if (s =? 0)%Z then Some (S_ "augmented-major-seventh") else if (s =? -1)%Z then Some (S_ "augmented-seventh") else None
                 else
                   if (s =? -1)%Z then Some (S_ "half-diminished-seventh") else if (s =? -2)%Z then Some (S_ "diminished-seventh") else None)
            end
          else Some None
        else if (m_degree m =? 9)%N then
          match m_interval m with
          | None => None
          | Some s => Some
              (if (s =? 0)%Z then
                 if str_eqb k (S_ "augmented-seventh") then Some (S_ "augmented-dominant-ninth")
                 else if str_eqb k (S_ "augmented-major-seventh") then Some (S_ "augmented-major-ninth") else None
               else None)
          end
        else Some None
    | Alter =>
        if (m_degree m =? 5)%N then
          match m_interval m with
          | None => None
          | Some s => Some (if (s =? -1)%Z && str_eqb k (S_ "minor-seventh") then Some (S_ "half-diminished-seventh") else None)
          end
        else Some None
    | Subtract => Some None
    end
  else Some None.
Definition simplify (c : chord) : option chord :=
  match c_mods c with
  | [m] => match simplified (c_kind c) m with
           | None => None
           | Some None => Some c
           | Some (Some k) => Some (Chord (c_root c) (c_bass c) k [])
           end
  | _ => Some c
  end.

(** ** Intervals of music21 *)

(** Semitones of the steps above C, and of the major and perfect intervals. *)
Definition semis (i : nat) : Z := nth (i mod 7) [0; 2; 4; 5; 7; 9; 11]%Z 0%Z + 12 * Z.of_nat (i / 7).
(** Whether the interval of that generic number has a perfect form. *)
Definition perfect (g : nat) : bool := match (g - 1) mod 7 with 0 | 3 | 4 => true | _ => false end.
(** The name of an interval: generic number and semitones above its major or perfect form. *)
Definition iv_quality (g : nat) (a : Z) : str :=
  if (0 <? a)%Z then rep "A"%char (Z.to_nat a)
  else if (a =? 0)%Z then [if perfect g then "P" else "M"]%char
  else if perfect g then rep "d"%char (Z.to_nat (- a))
  else if (a =? -1)%Z then ["m"]%char
  else rep "d"%char (Z.to_nat (- a - 1)).
Definition iv_name (g : nat) (a : Z) : str := iv_quality g a ++ show_N (N.of_nat g).
(** What music21 makes of the name of an interval; None: it is not one. *)
Definition iv_parse (s : str) : option (nat * Z) :=
  let (q, ds) := span (fun c => negb (is_digit c)) s in
  let g := N.to_nat (parse_N ds) in
  match ds with
  | [] => None
  | _ =>
      if negb (forallb is_digit ds) || Nat.eqb g 0 then None else
      match q with
      | ["P"%char] => if perfect g then Some (g, 0%Z) else None
      | ["M"%char] => if perfect g then None else Some (g, 0%Z)
      | ["m"%char] => if perfect g then None else Some (g, (-1)%Z)
      | _ :: _ =>
          if forallb (Ascii.eqb "A"%char) q then Some (g, Z.of_nat (List.length q))
          else if forallb (Ascii.eqb "d"%char) q then Some (g, if perfect g then (- Z.of_nat (List.length q))%Z else (- Z.of_nat (List.length q) - 1)%Z)
          else None
      | [] => None
      end
  end.
(** [Interval.transposePitch], as far as the name of the pitch is concerned. *)
Definition transpose (r : pname) (g : nat) (a : Z) : pname :=
  let i := p_step r + (g - 1) in
  PName (i mod 7) (p_alter r + semis (g - 1) + a - (semis i - semis (p_step r))).

(** ** Writing *)

(** m21utilities.py:3273-3274, [hartifyRoot]. *)
Definition hartifyRoot (r : pname) : str := map (fun c => if Ascii.eqb c "-"%char then "b"%char else c) (pitch_name r).

(** m21utilities.py:3286-3295: the interval from the root to the bass.  [up]: the bass is
    moved up an octave because it sounds lower than the root in the same octave.  When
    the bass has the lower step but does not sound lower, the interval goes down, and its
    name is that of the interval from the bass up to the root. *)
Definition bass_interval (bass root : pname) : nat * Z :=
  let ps p := (semis (p_step p) + p_alter p)%Z in
  let up := (ps bass <? ps root)%Z in
  let bs := p_step bass + (if up then 7 else 0) in
  let d := (ps bass + (if up then 12 else 0) - ps root)%Z in
  if Nat.leb (p_step root) bs then (bs - p_step root + 1, (d - semis (bs - p_step root))%Z)
  else (p_step root - bs + 1, (- d - semis (p_step root - bs))%Z).

(** m21utilities.py:3297-3316, from the name of the interval to the degree. *)
Definition hartify_name (nm : str) : str :=
  let deg := [last nm " "%char] in
  let flats k := rep "b"%char (count_char "d"%char nm + k) in
  let sharps := rep "#"%char (count_char "A"%char nm) in
  let imperfect :=
    match nm with
    | "M"%char :: _ => deg
    | "A"%char :: _ => sharps ++ deg
    | "m"%char :: _ => S_ "b" ++ deg
    | "d"%char :: _ => flats 1 ++ deg
    | _ => deg
    end in
  if str_eqb deg (S_ "1") || str_eqb deg (S_ "4") || str_eqb deg (S_ "5") then
    match nm with
    | "P"%char :: _ => deg
    | "A"%char :: _ => sharps ++ deg
    | "d"%char :: _ => flats 0 ++ deg
    | _ => imperfect
    end
  else imperfect.
(** m21utilities.py:3276-3316, [hartifyBass]. *)
Definition hartifyBass (bass root : pname) : str :=
  if str_eqb (pitch_name bass) (pitch_name root) then []
  else let (g, a) := bass_interval bass root in hartify_name (iv_name g a).

(** m21utilities.py:3402-3409: a modification as a degree. *)
Definition mod_degree (m : cmod) : str :=
  match m_interval m with
  | None => show_N (m_degree m)
  | Some s => rep (if (0 <? s)%Z then "#"%char else "b"%char) (Z.abs_nat s) ++ show_N (m_degree m)
  end.
Definition is_add (m : cmod) : bool := match m_type m with Add => true | _ => false end.
Definition is_subtract (m : cmod) : bool := match m_type m with Subtract => true | _ => false end.
Definition is_alter (m : cmod) : bool := match m_type m with Alter => true | _ => false end.

(** m21utilities.py:3358-3433, [makeHarteFromChordSymbol].  None: an exception. *)
Definition makeHarteFromChordSymbol (noResult : str) (cs : csym) : option str :=
  match cs with
  | NoChord => Some (S_ "N")
  | Sym c0 =>
      match simplify c0 with
      | None => None
      | Some c =>
          let root := hartifyRoot (c_root c) in
          let bass := hartifyBass (c_bass c) (c_root c) in
          let sd :=
            if existsb is_alter (c_mods c) then option_map (fun d => ([], d)) (assoc_str (c_kind c) kind_to_degrees)
            else assoc_str (c_kind c) kind_to_shorthand in
          match sd with
          | None => Some noResult
          | Some (shorthand, degrees) =>
              let ds := match c_mods c with
                        | [] => Some degrees
                        | ms => modifyDegrees degrees (map mod_degree (filter is_add ms))
                                  (map mod_degree (filter is_subtract ms)) (map mod_degree (filter is_alter ms))
                        end in
              match ds with
              | None => None
              | Some ds =>
                  Some (root
                        ++ (match shorthand, ds with
                            | [], [] => []
                            | _, _ => S_ ":" ++ shorthand ++ match ds with [] => [] | _ => S_ "(" ++ ds ++ S_ ")" end
                            end)
                        ++ match bass with [] => [] | _ => S_ "/" ++ bass end)
              end
          end
      end
  end.

(** ** Reading *)

(** m21utilities.py:3437-3462, [parseHarte]: the regular expression, whose classes do not
    overlap so that nothing is ever given back; a final newline is not considered.
    None: no match (all four parts are empty then). *)
Definition in_root (c : ascii) : bool := char_in c (S_ "ABCDEFG#b").
Definition in_shorthand (c : ascii) : bool := is_lower c || is_digit c.
Definition in_degrees (c : ascii) : bool := char_in c (S_ "*#b,") || is_digit c.
Definition in_accid (c : ascii) : bool := char_in c (S_ "#b").
Definition parse_bass (s : str) : option str :=
  match s with
  | [] => Some []
  | "/"%char :: s' =>
      let (a, ds) := span in_accid s' in
      match ds with [] => None | _ => if forallb is_digit ds then Some s' else None end
  | _ => None
  end.
Definition parse_quality (s : str) : option (str * str * str) :=
  match s with
  | ":"%char :: s1 =>
      let (sh, s2) := span in_shorthand s1 in
      match s2 with
      | "("%char :: s3 =>
          match span in_degrees s3 with
          | (c :: ds, ")"%char :: s4) => option_map (fun b => (sh, c :: ds, b)) (parse_bass s4)
          | _ => None
          end
      | _ => option_map (fun b => (sh, [], b)) (parse_bass s2)
      end
  | _ => option_map (fun b => ([], [], b)) (parse_bass s)
  end.
Definition parseHarte (s : str) : option (str * str * str * str) :=
  match span in_root s with
  | ([], _) => None
  | (root, s') => option_map (fun '(sh, ds, b) => (root, sh, ds, b)) (parse_quality s')
  end.

(** m21utilities.py:3469-3500: from the degree of the bass to the name of an interval.  A
    string times a negative number is empty. *)
Fixpoint bass_parts (s acc : str) : str * str :=
  match s with
  | [] => (acc, [])
  | c :: s' => if in_accid c then bass_parts s' (acc ++ [c])
               else if char_in c (S_ "1234567") then (acc, [c]) else bass_parts s' acc
  end.
Definition times (c : ascii) (z : Z) : str := rep c (Z.to_nat z).
Definition bass_iv_name (bass : str) : str :=
  let (acc, num) := bass_parts bass [] in
  let a := (Z.of_nat (count_char "#"%char acc) - Z.of_nat (count_char "b"%char acc))%Z in
  if str_eqb num (S_ "1") || str_eqb num (S_ "4") || str_eqb num (S_ "5") then
    if (a <? 0)%Z then times "d"%char (- a) ++ num
    else if (0 <? a)%Z then times "A"%char a ++ num else S_ "P" ++ num
  else
    if (a =? -1)%Z then S_ "m" ++ num
    else if (a <? -1)%Z then times "d"%char (a - 1) ++ num
    else if (0 <? a)%Z then times "A"%char a ++ num else S_ "M" ++ num.
(** m21utilities.py:3464-3510, [deHartifyBass]; outer None: an exception. *)
Definition deHartifyBass (bass : str) (root : pname) : option (option pname) :=
  if str_eqb bass (S_ "1") then Some None
  else match iv_parse (bass_iv_name bass) with None => None | Some (g, a) => Some (Some (transpose root g a)) end.

(** [m21.pitch.Pitch] of a root (m21utilities.py:3525): a letter and its accidentals.
    None: an exception. *)
Fixpoint index_of (c : ascii) (s : str) : option nat :=
  match s with [] => None | x :: s' => if Ascii.eqb c x then Some 0 else option_map S (index_of c s') end.
Definition parse_root (s : str) : option pname :=
  match s with
  | [] => None
  | c :: acc =>
      match index_of c letters with
      | None => None
      | Some i =>
          if forallb (Ascii.eqb "#"%char) acc then Some (PName i (Z.of_nat (List.length acc)))
          else if forallb (Ascii.eqb "b"%char) acc then Some (PName i (- Z.of_nat (List.length acc)))
          else None
      end
  end.

Definition mem (x : str) (l : list str) : bool := existsb (str_eqb x) l.
(** [list.remove] of something that is there. *)
Definition drop (x : str) (l : list str) : list str := match remove x l with None => l | Some l' => l' end.
(** m21utilities.py:3541-3556: the degrees the text lists and those its shorthand implies,
    without the ones it takes away. *)
Definition removals (l : list str) : list str :=
  flat_map (fun d => match d with "*"%char :: d' => [d'] | _ => [] end) l.
Definition listed_degrees (shorthand degrees : str) : list str :=
  let l := degree_list degrees in
  match shorthand with
  | [] => l
  | _ =>
      match assoc_str shorthand shorthand_to_degrees with
      | None | Some [] => l
      | Some imp =>
          let '(imp', l') := fold_left (fun '(i, l) r => (drop r i, drop ("*"%char :: r) l)) (removals l) (imp, l) in
          l' ++ imp'
      end
  end.

(** Sets of strings as lists without repetition. *)
Fixpoint uniq (l : list str) : list str :=
  match l with [] => [] | x :: l' => if mem x l' then uniq l' else x :: uniq l' end.
Definition diff (a b : list str) : list str := filter (fun x => negb (mem x b)) a.
Definition inter (a b : list str) : list str := filter (fun x => mem x b) a.

Section Read.
(** The table [CHORD_TYPES] of music21 in its order: each kind with its degrees, flats
    as hyphens.  [set_order]: the order in which a set is turned into a list. *)
Context (types : list (str * str)) (set_order : list str -> list str).

Definition kind_degrees (n : str) : list str := split_char ","%char (map (fun c => if Ascii.eqb c "-"%char then "b"%char else c) n).

(** m21utilities.py:3568-3597: the kind that has the most in common with the degrees.
    State: the kind, the number of common notes, what is left over. *)
Definition try_kind (degs : list str) (st : str * nat * list str) (kn : str * str) : str * nat * list str :=
  let '(kind, most, rest) := st in
  let ds := uniq degs in
  let kd := uniq (kind_degrees (snd kn)) in
  if negb (match diff kd ds with [] => true | _ => false end) then st
  else
    let n := List.length (inter kd ds) in
    let left' := diff ds kd in
    if Nat.ltb most n then (fst kn, n, left')
    else if Nat.eqb n most && Nat.ltb (List.length left') (List.length rest) then (fst kn, n, left')
    else st.
Definition find_kind (degs : list str) : str * nat * list str := fold_left (try_kind degs) types ([], 0, []).

(** m21utilities.py:3608-3618: what is left over is added.  None: an exception. *)
Fixpoint added (l : list str) : option (list cmod) :=
  match l with
  | [] => Some []
  | d :: l' =>
      match degreeInt d, added l' with
      | Some n, Some r =>
          Some (if (n =? 1)%N then r
                else Mod Add n (Some (Z.of_nat (count_char "#"%char d) - Z.of_nat (count_char "b"%char d))%Z) :: r)
      | _, _ => None
      end
  end.

(** m21utilities.py:3512-3624, [makeChordSymbolFromHarte].  Outer None: an exception;
    inner None: the text is ignored.  music21 is taken to accept every root, bass and kind
    it is given. *)
Definition makeChordSymbolFromHarte (harte : str) : option (option csym) :=
  if str_eqb harte (S_ "N") then Some (Some NoChord)
  else
    match parseHarte harte with
    | None => Some None
    | Some (root, shorthand, degrees, bass) =>
        match parse_root root with
        | None => None
        | Some r =>
            match (match bass with [] => Some None | _ => deHartifyBass bass r end) with
            | None => None
            | Some b =>
                let l := listed_degrees shorthand degrees in
                let l := if mem (S_ "1") l then l else S_ "1" :: l in
                match sorted_degrees l with
                | None => None
                | Some l =>
                    match find_kind l with
                    | ([], _, _) => None
                    | (kind, _, rest) =>
                        match option_map added (sorted_degrees (set_order rest)) with
                        | Some (Some ms) =>
                            option_map (fun c => Some (Sym c))
                              (simplify (Chord r (match b with None => r | Some p => p end) kind ms))
                        | _ => None
                        end
                    end
                end
            end
        end
    end.
End Read.
