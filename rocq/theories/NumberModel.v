(** Model of measure numbers: written on barlines and read from them. *)
From Verif Require Import PyStr LayoutModel TextModel SpineModel ImportModel BarModel.

(** A measure's [number] and [numberSuffix], as [measureNumberWithSuffix] gives
    them, with "0" left out (measuredata.py:163-165). *)
Definition measureNumberString (n : N) (suffix : str) : str :=
  let s := show_N n ++ suffix in if str_eqb s (S_ "0") then [] else s.

(** Python's [re.search(r'([\d]+)', text)]: the first run of digits. *)
Fixpoint first_digits (s : str) : str :=
  match s with
  | [] => []
  | c :: s' => if is_digit c then fst (span is_digit s) else first_digits s'
  end.
Definition isBarlineTok (t : str) : bool := starts_with (S_ "=") t.
(** humdrumtoken.py:2002-2009; [None] is -1. *)
Definition barlineNumber (t : str) : option N :=
  if isBarlineTok t then match first_digits t with [] => None | d => Some (parse_N d) end else None.

Definition is_lower (c : ascii) : bool := char_in c (S_ "abcdefghijklmnopqrstuvwxyz").
(** Python's [re.search(r'([\d]+([a-z]{1}))', text)]: the first run of digits that
    is followed by a lower-case letter; [run] are the digits just read. *)
Fixpoint name_from (run s : str) : str :=
  match s with
  | [] => []
  | c :: s' =>
      if is_digit c then name_from (run ++ [c]) s'
      else match run with
           | [] => name_from [] s'
           | _ => if is_lower c then run ++ [c] else name_from [] s'
           end
  end.
(** humdrumtoken.py:2019-2027. *)
Definition barlineName (t : str) : str := if isBarlineTok t then name_from [] t else [].

(** The number of a measure (humdrumfile.py:1300-1340, 1086-1088). *)
Inductive mnumber := Num (n : N) | Name (s : str).
Definition line_number (text : str) : mnumber :=
  let t := match tokens text with t :: _ => t | [] => [] end in
  match barlineName t with
  | [] => match barlineNumber t with Some n => Num n | None => Num 0 end
  | nm => Name nm
  end.
Fixpoint first_barline (lines : list str) : mnumber :=
  match lines with
  | [] => Num 0
  | l :: ls => if isBarlineLine l then line_number l
               else if isDataLine l then Num 0 else first_barline ls
  end.
Definition measureNumber (lines : list str) (startLine : nat) : mnumber :=
  let l := nth startLine lines [] in
  if isBarlineLine l then line_number l else first_barline lines.

(** music21's [Measure(number=...)] splits a name into number and suffix. *)
Definition m21_number (m : mnumber) : N * str :=
  match m with
  | Num n => (n, [])
  | Name s => (parse_N (fst (span is_digit s)), snd (span is_digit s))
  end.
