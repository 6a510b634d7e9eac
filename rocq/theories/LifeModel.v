(** Ranges of dates: a composer's dates of birth and death in Humdrum (CDT) and
    in MEI (birthDate and deathDate), on top of DateModel.v. *)
From Verif Require Import PyStr DateModel.

(** [s.replace('-', '^')]. *)
Definition caret (s : str) : str := map (fun c => if Ascii.eqb c "-" then "^"%char else c) s.

(** [stringFromM21DatePrimitiveRange] (m21utilities.py:2440-2466). *)
Definition stringFromRange (p q : dateprim) : str :=
  match p, q with
  | DateSingle a Certain, DateSingle b Certain => stringFromM21DateObject (DateBetween a b)
  | _, _ => caret (stringFromM21DateObject p) ++ S_ "-" ++ caret (stringFromM21DateObject q)
  end.

(** [m21DatePrimitiveRangeFromString] (m21utilities.py:2468-2480). *)
Definition rangeFromString (s : str) : option dateprim * option dateprim :=
  match split_char "-" s with
  | [a; b] => (m21DatePrimitiveFromString a, m21DatePrimitiveFromString b)
  | _ => (None, None)
  end.

(** The text of a date key when a Humdrum file is read
    (humdrumfile.py:10898-10923). *)
Definition normalizedDate (s : str) : str :=
  match m21DatePrimitiveFromString s with
  | Some p => stringFromM21DateObject p
  | None => match rangeFromString s with
            | (Some p, Some q) => stringFromRange p q
            | _ => s
            end
  end.

(** One end of [edtfNestedDateRangeFromString] (m21utilities.py:1977-2009 and
    2011-2039); [None]: the function returns no dates at all. *)
Definition nestedEdtf (p : dateprim) : option str :=
  let iso d := match isoDateFromM21Date true d with [] => None | s => Some s end in
  match p with
  | DateSingle d r =>
      option_map (fun s => s ++ match r with SApproximate => S_ "~" | SUncertain => S_ "?" | Certain => [] end) (iso d)
  | DateRelative d r =>
      option_map (fun s => match r with Prior | OnOrBefore => S_ "../" ++ s | _ => s ++ S_ "/.." end) (iso d)
  | DateBetween a b =>
      match iso a, iso b with Some x, Some y => Some (S_ "[" ++ x ++ S_ ".." ++ y ++ S_ "]") | _, _ => None end
  | DateSelection l r =>
      option_map (fun ss => match r with
                            | And => S_ "{" ++ join (S_ ",") ss ++ S_ "}"
                            | Or => S_ "[" ++ join (S_ ",") ss ++ S_ "]"
                            end) (all_some (map iso l))
  end.

(** [edtfNestedDateRangeFromString] (m21utilities.py:1959-2041). *)
Definition edtfNestedDateRangeFromString (s : str) : option (str * str) :=
  match rangeFromString s with
  | (Some p, Some q) => match nestedEdtf p, nestedEdtf q with Some x, Some y => Some (x, y) | _, _ => None end
  | _ => None
  end.

(** The texts of [birthDate] and [deathDate] written for the text of the dates
    (meimetadata.py:1095-1133 with m21utilities.py:2043-2113, edtf); [None]:
    the element is not written. *)
Definition text_or_none (s : str) : option str := match s with [] => None | _ => Some s end.
Definition birthAndDeathWritten (s : str) : option str * option str :=
  match m21DatePrimitiveFromString s with
  | None => match edtfNestedDateRangeFromString s with Some (x, y) => (text_or_none x, text_or_none y) | None => (None, None) end
  | Some p =>
      match edtfFromM21DatePrimitive p with
      | None => (None, None)
      | Some e =>
          match split_char "/" e with
          | [] => (None, None)
          | [x] => (text_or_none x, None)
          | x :: y :: _ => (text_or_none x, text_or_none y)
          end
      end
  end.

(** The text of the dates read from [birthDate] and [deathDate]
    (meimetadatareader.py:876-900); their texts have no white space around. *)
Definition birthAndDeathRead (birth death : option str) : option str :=
  match birth, death with
  | Some x, Some y =>
      match m21DatePrimitiveFromIsoDate x, m21DatePrimitiveFromIsoDate y with
      | Some p, Some q => Some (stringFromRange p q)
      | _, _ => None
      end
  | _, _ => None
  end.
