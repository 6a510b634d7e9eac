(** Barlines and key signatures: combining neighbouring barlines when exporting,
    writing the barline token, and reading it back; key-signature tokens. *)
From Coq Require Export String Ascii List NArith ZArith Bool Arith.
Export ListNotations.
From Verif Require Export PyStr.
Open Scope list_scope.

(** converter21/humdrum/gridcommon.py lines 95-112, MeasureVisualStyle, in the
    order of its values. *)
Inductive vstyle :=
  | Regular | Double | HeavyHeavy | HeavyLight | Final | Short | Tick | Dotted
  | Dashed | Heavy | HeavyLightHeavy | LightHeavyLight | Invisible.

(** gridcommon.py lines 116-120, MeasureType. *)
Inductive mtype := NotRepeat | RepeatBackward | RepeatForward | RepeatBoth.

Definition vrank (v : vstyle) : nat :=
  match v with
  | Regular => 1 | Double => 2 | HeavyHeavy => 3 | HeavyLight => 4 | Final => 5
  | Short => 6 | Tick => 7 | Dotted => 8 | Dashed => 9 | Heavy => 10
  | HeavyLightHeavy => 11 | LightHeavyLight => 12 | Invisible => 13
  end.
Definition mrank (m : mtype) : nat :=
  match m with NotRepeat => 1 | RepeatBackward => 2 | RepeatForward => 3 | RepeatBoth => 4 end.

(** Python's [max(a, b)] on the enums: the second only when strictly greater. *)
Definition vmax (a b : vstyle) : vstyle := if vrank a <? vrank b then b else a.
Definition mmax (a b : mtype) : mtype := if mrank a <? mrank b then b else a.

Definition vstyle_eqb (a b : vstyle) : bool := Nat.eqb (vrank a) (vrank b).

(** A MeasureStyle is a pair of the two; gridcommon.py lines 123-160 lists the
    pairs that exist. *)
Definition style := (vstyle * mtype)%type.

Definition style_exists (s : style) : bool :=
  match snd s with
  | NotRepeat =>
      match fst s with HeavyLightHeavy | LightHeavyLight => false | _ => true end
  | RepeatBackward | RepeatForward =>
      match fst s with
      | Regular | Heavy | HeavyLight | Final | HeavyHeavy | Double => true
      | _ => false
      end
  | RepeatBoth =>
      match fst s with
      | Regular | Heavy | HeavyLight | Final | HeavyHeavy | Double
      | HeavyLightHeavy | LightHeavyLight => true
      | _ => false
      end
  end.

(** m21convert.py lines 3155-3171, getMeasureStyle: KeyError is [None]. *)
Definition getMeasureStyle (v : vstyle) (m : mtype) : option style :=
  if style_exists (v, m) then Some (v, m) else None.

(** m21convert.py lines 3033-3121, the table of combined "repeat both" styles. *)
Definition combineVisualRepeatBothStyles (a b : vstyle) : vstyle :=
  match a, b with
  (* lines 3057-3062, the standard combinations *)
  | HeavyLight, Final => HeavyLightHeavy
  | Final, HeavyLight => LightHeavyLight
  (* lines 3070-3081 *)
  | Heavy, Final => HeavyLightHeavy
  | HeavyLight, Heavy => HeavyLightHeavy
  | Regular, HeavyLight => LightHeavyLight
  | Final, Regular => LightHeavyLight
  (* lines 3086-3091 *)
  | Heavy, Regular => HeavyLight
  | Regular, Heavy => Final
  (* lines 3046-3052 *)
  | HeavyLightHeavy, _ => HeavyLightHeavy
  | LightHeavyLight, _ => LightHeavyLight
  (* lines 3096-3121, the rest; equal styles (lines 3040-3041) give themselves *)
  | _, Invisible => Invisible
  | Regular, b => b
  | a, _ => a
  end.

(** m21convert.py lines 3133-3153, combineTwoMeasureStyles. *)
Definition combineTwoMeasureStyles (curr prev : style) : option style :=
  match snd prev with
  | RepeatBackward =>
      match snd curr with
      | RepeatForward =>
          getMeasureStyle (combineVisualRepeatBothStyles (fst prev) (fst curr)) RepeatBoth
      | _ => getMeasureStyle (fst prev) RepeatBackward
      end
  | _ => getMeasureStyle (vmax (fst curr) (fst prev)) (mmax (snd curr) (snd prev))
  end.

(** The barlines of a score: music21's bar types, m21convert.py lines 3173-3185
    and 3211-3224 (those this code names). *)
Inductive btype :=
  | BRegular | BDotted | BDashed | BHeavy | BDouble | BFinal | BHeavyLight
  | BHeavyHeavy | BTick | BShort | BNone.

(** music21's bar.Barline and bar.Repeat (direction 'start' or 'end'). *)
Inductive barline :=
  | Bar (t : btype)
  | RepeatStart (t : btype)
  | RepeatEnd (t : btype).

(** m21convert.py lines 3173-3185. *)
Definition measureVisualStyleFromM21BarlineType (t : btype) : vstyle :=
  match t with
  | BRegular => Regular | BDotted => Dotted | BDashed => Regular | BHeavy => Heavy
  | BDouble => Double | BFinal => Final | BHeavyLight => HeavyLight
  | BHeavyHeavy => HeavyHeavy | BTick => Tick | BShort => Short | BNone => Invisible
  end.

(** m21convert.py lines 3187-3202.  [None] barline: Regular.  The outer option
    is the KeyError of getMeasureStyle. *)
Definition measureStyleFromM21Barline (b : option barline) : option style :=
  match b with
  | None => Some (Regular, NotRepeat)
  | Some (Bar t) => getMeasureStyle (measureVisualStyleFromM21BarlineType t) NotRepeat
  | Some (RepeatStart t) => getMeasureStyle (measureVisualStyleFromM21BarlineType t) RepeatForward
  | Some (RepeatEnd t) => getMeasureStyle (measureVisualStyleFromM21BarlineType t) RepeatBackward
  end.

(** measuredata.py lines 174-186: the style of a measure, from its own left
    barline and the right barline of the measure before. *)
Definition measure_style (left prev_right : option barline) : option style :=
  match measureStyleFromM21Barline left, measureStyleFromM21Barline prev_right with
  | Some l, Some r => combineTwoMeasureStyles l r
  | _, _ => None
  end.

(** gridcommon.py lines 166-170, FermataStyle, and m21convert.py lines 3340-3352. *)
Inductive fermata := NoFermata | Fermata | FermataAbove | FermataBelow.
Definition combineTwoFermataStyles (curr prev : fermata) : fermata :=
  match curr with
  | NoFermata => match prev with NoFermata => NoFermata | _ => prev end
  | _ => curr
  end.

(** convert.py lines 1398-1430; [None] for the pairs that do not exist. *)
Definition barline_style_str (s : style) : option str :=
  match s with
  | (Double, NotRepeat) => Some (S_ "||")
  | (HeavyHeavy, NotRepeat) => Some (S_ "!!")
  | (HeavyLight, NotRepeat) => Some (S_ "!|")
  | (Final, NotRepeat) => Some (S_ "=")
  | (Short, NotRepeat) => Some (S_ "'")
  | (Tick, NotRepeat) => Some (S_ "`")
  | (Dotted, NotRepeat) => Some (S_ ".")
  | (Dashed, NotRepeat) => Some (S_ ":")
  | (Invisible, NotRepeat) => Some (S_ "-")
  | (Regular, NotRepeat) => Some (S_ "")
  | (Heavy, NotRepeat) => Some (S_ "!")
  | (Regular, RepeatBackward) => Some (S_ ":|")
  | (Heavy, RepeatBackward) => Some (S_ ":!")
  | (HeavyLight, RepeatBackward) => Some (S_ ":!|")
  | (Final, RepeatBackward) => Some (S_ ":|!")
  | (HeavyHeavy, RepeatBackward) => Some (S_ ":!!")
  | (Double, RepeatBackward) => Some (S_ ":||")
  | (Regular, RepeatForward) => Some (S_ "|:")
  | (Heavy, RepeatForward) => Some (S_ "!:")
  | (HeavyLight, RepeatForward) => Some (S_ "!|:")
  | (Final, RepeatForward) => Some (S_ "|!:")
  | (HeavyHeavy, RepeatForward) => Some (S_ "!!:")
  | (Double, RepeatForward) => Some (S_ "||:")
  | (Regular, RepeatBoth) => Some (S_ ":|:")
  | (Heavy, RepeatBoth) => Some (S_ ":!:")
  | (HeavyLight, RepeatBoth) => Some (S_ ":!|:")
  | (Final, RepeatBoth) => Some (S_ ":|!:")
  | (HeavyHeavy, RepeatBoth) => Some (S_ ":!!:")
  | (Double, RepeatBoth) => Some (S_ ":||:")
  | (HeavyLightHeavy, RepeatBoth) => Some (S_ ":!|!:")
  | (LightHeavyLight, RepeatBoth) => Some (S_ ":|!|:")
  | _ => None
  end.

(** convert.py lines 1437-1442. *)
Definition fermata_str (f : fermata) : str :=
  match f with
  | NoFermata => S_ "" | Fermata => S_ ";" | FermataAbove => S_ ";>" | FermataBelow => S_ ";<"
  end.

(** humgrid.py lines 1153-1162, getMeasureStyle. *)
Definition bar_suffix (s : style) (f : fermata) : option str :=
  match barline_style_str s with
  | Some t => Some (t ++ fermata_str f)
  | None => None
  end.

(** humgrid.py lines 1065-1086, createBarToken; [num] is measureNumberString. *)
Definition createBarToken (num : str) (s : style) (f : fermata) : option str :=
  match bar_suffix s f with
  | None => None
  | Some suf => Some (
      match num with
      | [] => S_ "=" ++ suf
      | _ =>
          if str_eqb suf (S_ "=") then S_ "==" ++ num
          else if starts_with (S_ "=;") suf then S_ "==" ++ num ++ tl suf
          else S_ "=" ++ num ++ suf
      end)
  end.

(** humgrid.py lines 1018-1057 (addLastBarline): the last token has no number. *)
Definition lastBarToken (s : style) (f : fermata) : option str := createBarToken [] s f.

(** Python's [sub in s]. *)
Fixpoint contains (sub s : str) : bool :=
  starts_with sub s || match s with [] => false | _ :: s' => contains sub s' end.

(** m21convert.py lines 3211-3224, in dictionary order. *)
Definition m21BarlineTypeFromHumdrumType : list (str * btype) :=
  [ (S_ "||", BDouble); (S_ "!!", BHeavyHeavy); (S_ "!|", BHeavyLight); (S_ "|!", BFinal);
    (S_ "==", BFinal); (S_ "'", BShort); (S_ "`", BTick); (S_ "-", BNone); (S_ "|", BRegular);
    (S_ "!", BHeavy); (S_ ".", BDotted); (S_ ":", BDashed) ].

(** m21convert.py lines 3226-3231. *)
Fixpoint first_in (table : list (str * btype)) (s : str) : btype :=
  match table with
  | [] => BRegular
  | (k, t) :: table' => if contains k s then t else first_in table' s
  end.
Definition m21BarlineTypeFromHumdrumString (s : str) : btype :=
  first_in m21BarlineTypeFromHumdrumType s.

Inductive side := LeftSide | RightSide.

(** m21convert.py lines 3233-3278; [None] is HumdrumInternalError. *)
Definition m21BarlineTypeFromHumdrumRepeatString (s : str) (sd : side) : option btype :=
  match sd with
  | LeftSide =>
      if contains (S_ ":!|!:") s then Some (m21BarlineTypeFromHumdrumString (S_ "|!:"))
      else if contains (S_ ":|!|:") s then Some (m21BarlineTypeFromHumdrumString (S_ "!|:"))
      else if contains (S_ ":||:") s then Some (m21BarlineTypeFromHumdrumString (S_ "||:"))
      else if contains (S_ ":!:") s then Some (m21BarlineTypeFromHumdrumString (S_ "!:"))
      else if contains (S_ ":|:") s then Some (m21BarlineTypeFromHumdrumString (S_ "|:"))
      else if contains (S_ "|:") s || contains (S_ "!:") s
           then Some (m21BarlineTypeFromHumdrumString s)
      else None
  | RightSide =>
      if contains (S_ ":!|!:") s then Some (m21BarlineTypeFromHumdrumString (S_ ":!|"))
      else if contains (S_ ":|!|:") s then Some (m21BarlineTypeFromHumdrumString (S_ ":|!"))
      else if contains (S_ ":||:") s then Some (m21BarlineTypeFromHumdrumString (S_ ":||"))
      else if contains (S_ ":!:") s then Some (m21BarlineTypeFromHumdrumString (S_ ":!"))
      else if contains (S_ ":|:") s then Some (m21BarlineTypeFromHumdrumString (S_ ":|"))
      else if contains (S_ ":|") s || contains (S_ ":!") s
           then Some (m21BarlineTypeFromHumdrumString s)
      else None
  end.

Definition start_repeat_in (s : str) : bool := contains (S_ "|:") s || contains (S_ "!:") s.
Definition end_repeat_in (s : str) : bool := contains (S_ ":|") s || contains (S_ ":!") s.

(** m21convert.py lines 3280-3322, m21BarlineFromHumdrumString. *)
Definition m21BarlineFromHumdrumString (s : str) (sd : side) : option barline :=
  match sd with
  | RightSide =>
      if end_repeat_in s then option_map RepeatEnd (m21BarlineTypeFromHumdrumRepeatString s RightSide)
      else if start_repeat_in s then Some (Bar BRegular)
      else Some (Bar (m21BarlineTypeFromHumdrumString s))
  | LeftSide =>
      if start_repeat_in s then option_map RepeatStart (m21BarlineTypeFromHumdrumRepeatString s LeftSide)
      else if end_repeat_in s then Some (Bar BRegular)
      else Some (Bar (m21BarlineTypeFromHumdrumString s))
  end.

(** humdrumfile.py lines 1269-1291 (_setSystemMeasureStyle): the right barline of
    the measure the token ends, and the left barline it gives to the measure it
    starts ([None]: none set).  The outer option is an exception. *)
Definition read_bar_token (s : str) : option (barline * option barline) :=
  if starts_with (S_ "==") s then Some (Bar BFinal, None)
  else
    match m21BarlineFromHumdrumString s RightSide with
    | None => None
    | Some r =>
        if start_repeat_in s
        then match m21BarlineFromHumdrumString s LeftSide with
             | None => None
             | Some l => Some (r, Some l)
             end
        else Some (r, None)
    end.

(** What a score with these two barlines is read back as. *)
Definition export_import (num : str) (left prev_right : option barline) (f : fermata)
  : option (barline * option barline) :=
  match measure_style left prev_right with
  | None => None
  | Some s => match createBarToken num s f with
              | None => None
              | Some tok => read_bar_token tok
              end
  end.

(** Key signatures. *)

(** m21convert.py lines 128-158. *)
Definition numSharpsToHumdrumStandardKeyStrings (k : Z) : option str :=
  match k with
  | 0 => Some (S_ "")
  | 1 => Some (S_ "f#")
  | 2 => Some (S_ "f#c#")
  | 3 => Some (S_ "f#c#g#")
  | 4 => Some (S_ "f#c#g#d#")
  | 5 => Some (S_ "f#c#g#d#a#")
  | 6 => Some (S_ "f#c#g#d#a#e#")
  | 7 => Some (S_ "f#c#g#d#a#e#b#")
  | 8 => Some (S_ "f##c#g#d#a#e#b#")
  | 9 => Some (S_ "f##c##g#d#a#e#b#")
  | 10 => Some (S_ "f##c##g##d#a#e#b#")
  | 11 => Some (S_ "f##c##g##d##a#e#b#")
  | 12 => Some (S_ "f##c##g##d##a##e#b#")
  | 13 => Some (S_ "f##c##g##d##a##e##b#")
  | 14 => Some (S_ "f##c##g##d##a##e##b##")
  | -1 => Some (S_ "b-")
  | -2 => Some (S_ "b-e-")
  | -3 => Some (S_ "b-e-a-")
  | -4 => Some (S_ "b-e-a-d-")
  | -5 => Some (S_ "b-e-a-d-g-")
  | -6 => Some (S_ "b-e-a-d-g-c-")
  | -7 => Some (S_ "b-e-a-d-g-c-f-")
  | -8 => Some (S_ "b--e-a-d-g-c-f-")
  | -9 => Some (S_ "b--e--a-d-g-c-f-")
  | -10 => Some (S_ "b--e--a--d-g-c-f-")
  | -11 => Some (S_ "b--e--a--d--g-c-f-")
  | -12 => Some (S_ "b--e--a--d--g--c-f-")
  | -13 => Some (S_ "b--e--a--d--g--c--f-")
  | -14 => Some (S_ "b--e--a--d--g--c--f--")
  | _ => None
  end%Z.

(** m21convert.py lines 2512-2520, keySigTokenFromM21KeySignature. *)
Definition keySigToken (k : Z) : option str :=
  match numSharpsToHumdrumStandardKeyStrings k with
  | Some s => Some (S_ "*k[" ++ s ++ S_ "]")
  | None => None
  end.

(** humdrumtoken.py lines 1387-1395, isKeySignature and keySignature. *)
Definition isKeySignature (t : str) : bool :=
  starts_with (S_ "*k[") t && Ascii.eqb (last t " "%char) "]"%char.
Definition keySignature (t : str) : str :=
  if isKeySignature t then removelast (skipn 3 t) else [].

(** m21convert.py lines 110-126. *)
Definition humdrumStandardKeyStrings : list (str * Z) :=
  [ (S_ "", 0); (S_ "f#", 1); (S_ "f#c#", 2); (S_ "f#c#g#", 3); (S_ "f#c#g#d#", 4);
    (S_ "f#c#g#d#a#", 5); (S_ "f#c#g#d#a#e#", 6); (S_ "f#c#g#d#a#e#b#", 7);
    (S_ "b-", -1); (S_ "b-e-", -2); (S_ "b-e-a-", -3); (S_ "b-e-a-d-", -4);
    (S_ "b-e-a-d-g-", -5); (S_ "b-e-a-d-g-c-", -6); (S_ "b-e-a-d-g-c-f-", -7) ]%Z.

Fixpoint lookup_key (table : list (str * Z)) (s : str) : option Z :=
  match table with
  | [] => None
  | (k, v) :: table' => if str_eqb k s then Some v else lookup_key table' s
  end.

(** m21convert.py lines 685-694. *)
Definition drop_naturals (s : str) : str :=
  if char_in "n"%char s
  then replace (S_ "gn") [] (replace (S_ "fn") [] (replace (S_ "en") [] (replace (S_ "dn") []
         (replace (S_ "cn") [] (replace (S_ "bn") [] (replace (S_ "an") [] s))))))
  else s.

(** m21convert.py lines 702-718: two letters at a time, upper-cased. *)
Fixpoint pairs_upper (s : str) : list str :=
  match s with
  | a :: b :: s' => [to_upper a; to_upper b] :: pairs_upper s'
  | [a] => [[to_upper a]]
  | [] => []
  end.

Inductive keysig :=
  | Sharps (k : Z)              (* music21 KeySignature(k) *)
  | Altered (ps : list str).    (* a non-standard signature *)

(** m21convert.py lines 676-740, m21KeySignature, without a key designation
    (keyToken = None): the returned signature, [None] if there is none. *)
Definition m21KeySignature (t : str) : option keysig :=
  let s := drop_naturals (keySignature t) in
  match lookup_key humdrumStandardKeyStrings s with
  | Some k => Some (Sharps k)
  | None =>
      let ps := pairs_upper s in
      if forallb (fun p => match p with c :: _ => char_in c (S_ "abcdefg") | [] => true end) ps
      then Some (Altered ps)
      else None
  end.
