(** Models of the date conversions of m21utilities.py.

    A [m21.metadata.Date] is six optional numbers, each with an optional error
    mark; a mark on an absent number is not represented (the code never reads
    one).  [int()] and [float()] are modelled on optional sign and digits (and a
    decimal point for seconds); Python's underscores, exponents, [inf] and [nan]
    are not.  The range checks of music21's constructors are not modelled. *)
From Verif Require Import PyStr.

Inductive derr := Approximate | Uncertain.
Definition fld := option (Z * option derr).
(** year, month, day, hour, minute, second (m21utilities.py:2281-2283). *)
Record date := mkDate { year : fld; month : fld; day : fld; hour : fld; minute : fld; second : fld }.
Definition fields (d : date) : list fld := [year d; month d; day d; hour d; minute d; second d].
Definition date_of (l : list fld) : date :=
  mkDate (nth 0 l None) (nth 1 l None) (nth 2 l None) (nth 3 l None) (nth 4 l None) (nth 5 l None).

(** ['%02.i' % n], ['%02d' % n], ['%04d' % n]: the sign counts in the width. *)
Definition pad (w : nat) (z : Z) : str :=
  let ds := show_N (Z.abs_N z) in
  let sign := if (z <? 0)%Z then S_ "-" else [] in
  sign ++ rep "0" (w - length sign - length ds) ++ ds.

(** [_dateErrorToSymbol] (m21utilities.py:2431-2437). *)
Definition error_symbol (e : option derr) : str :=
  match e with None => [] | Some Approximate => S_ "x" | Some Uncertain => S_ "z" end.

(** The text of one attribute (m21utilities.py:2390-2413); [i] is its index. *)
Definition attr_text (i : nat) (f : fld) : str :=
  match f with
  | None => []
  | Some (v, e) =>
      if (v =? 0)%Z then []
      else
        let sub := if i =? 0 then show_Z v else pad 2 v in
        let sub := if i =? 0 then
                     match sub with
                     | c :: rest => if (2 <=? length sub) && Ascii.eqb c "-" then "@"%char :: rest else sub
                     | [] => sub
                     end
                   else if (i =? 5) && starts_with (S_ "60") sub then S_ "59" else sub in
        sub ++ error_symbol e
  end.

(** [_stringFromDate] (m21utilities.py:2382-2429). *)
Definition stringFromDate (d : date) : str :=
  let y := attr_text 0 (year d) in
  let mo := attr_text 1 (month d) in
  let da := attr_text 2 (day d) in
  match hour d, minute d, second d with
  | None, None, None =>
      y ++ (match mo, da with [], [] => [] | _, _ => S_ "/" ++ mo end)
        ++ (match da with [] => [] | _ => S_ "/" ++ da end)
  | _, _, _ =>
      y ++ S_ "/" ++ mo ++ S_ "/" ++ da ++ S_ "/" ++ attr_text 3 (hour d) ++ S_ ":" ++
        attr_text 4 (minute d) ++ S_ ":" ++ attr_text 5 (second d)
  end.

(** [int(s)]. *)
Definition digits_only (s : str) : bool := match s with [] => false | _ => forallb is_digit s end.
Definition py_int (s : str) : option Z :=
  match s with
  | "-"%char :: s' => if digits_only s' then Some (- Z.of_N (parse_N s'))%Z else None
  | "+"%char :: s' => if digits_only s' then Some (Z.of_N (parse_N s')) else None
  | _ => if digits_only s then Some (Z.of_N (parse_N s)) else None
  end.
Definition split_sign (s : str) : bool * str :=
  match s with "-"%char :: s' => (true, s') | "+"%char :: s' => (false, s') | _ => (false, s) end.
(** [int(float(s))]: the integer part. *)
Definition py_float_int (s : str) : option Z :=
  let (neg, s1) := split_sign s in
  let (a, r) := span is_digit s1 in
  match (match r with
         | [] => match a with [] => None | _ => Some (parse_N a) end
         | "."%char :: b => if forallb is_digit b && negb (match a, b with [], [] => true | _, _ => false end)
                            then Some (parse_N a) else None
         | _ => None
         end) with
  | None => None
  | Some n => Some (if neg then - Z.of_N n else Z.of_N n)%Z
  end.

(** [_stripDateError] (m21utilities.py:2257-2279). *)
Definition is_approx (c : ascii) : bool := Ascii.eqb c "~" || Ascii.eqb c "x".
Definition is_uncertain (c : ascii) : bool := Ascii.eqb c "?" || Ascii.eqb c "z".
Definition stripDateError (value : str) : str * option derr :=
  match find (fun c => is_approx c || is_uncertain c) value with
  | None => (value, None)
  | Some c => (filter (fun x => negb (Ascii.eqb x c)) value,
               Some (if is_approx c then Approximate else Uncertain))
  end.

(** A year before the common era (m21utilities.py:2304-2307). *)
Definition at_to_minus (value : str) : str :=
  match value with
  | c :: rest => if (2 <=? length value) && Ascii.eqb c "@" then "-"%char :: rest else value
  | [] => value
  end.
(** One chunk of [_dateFromString] (m21utilities.py:2302-2319); outer [None]:
    ValueError; inner [None]: no value. *)
Definition read_chunk (i : nat) (chunk : str) : option fld :=
  let (value, error) := stripDateError chunk in
  let value := if i =? 0 then at_to_minus value else value in
  match value with
  | [] => Some None
  | _ => match (if i =? 5 then py_float_int value else py_int value) with
         | None => None
         | Some v => Some (Some (v, error))
         end
  end.
Fixpoint read_chunks (i : nat) (chunks : list str) : option (list fld) :=
  match chunks with
  | [] => Some []
  | c :: cs => match read_chunk i c, read_chunks (S i) cs with Some f, Some fs => Some (f :: fs) | _, _ => None end
  end.
Definition present (f : fld) : bool := match f with None => false | Some _ => true end.

(** [_dateFromString] (m21utilities.py:2290-2335). *)
Definition dateFromString (s : str) : option date :=
  let s1 := map (fun c => if Ascii.eqb c ":" then "/"%char else c) s in
  let s2 := filter (fun c => negb (Ascii.eqb c " ")) s1 in
  match read_chunks 0 (split_char "/" s2) with
  | None => None
  | Some fs => if existsb present fs then Some (date_of fs) else None
  end.

(** The four kinds of date objects.  music21 reads the relevance 'before' as
    'prior'. *)
Inductive srel := Certain | SApproximate | SUncertain.
Inductive rrel := Prior | After | OnOrBefore | OnOrAfter.
Inductive sel := And | Or.
Inductive dateprim :=
| DateSingle (d : date) (r : srel)
| DateRelative (d : date) (r : rrel)
| DateBetween (a b : date)
| DateSelection (l : list date) (r : sel).

(** [stringFromM21DateObject] (m21utilities.py:2337-2380). *)
Definition stringFromM21DateObject (p : dateprim) : str :=
  match p with
  | DateSelection l _ => join (S_ "|") (map stringFromDate l)
  | DateBetween a b => stringFromDate a ++ S_ "-" ++ stringFromDate b
  | DateRelative d r => (match r with After | OnOrAfter => S_ ">" | _ => S_ "<" end) ++ stringFromDate d
  | DateSingle d r =>
      (match r with SUncertain => S_ "?" | SApproximate => S_ "~" | Certain => [] end) ++ stringFromDate d
  end.

Definition head_in (cs : list ascii) (s : str) : bool :=
  match s with [] => false | c :: _ => existsb (Ascii.eqb c) cs end.
(** [s.split(c, 1)] when [c] is in [s]. *)
Fixpoint split_first (c : ascii) (s : str) : str * str :=
  match s with
  | [] => ([], [])
  | x :: s' => if Ascii.eqb x c then ([], s') else let (a, b) := split_first c s' in (x :: a, b)
  end.
Fixpoint all_some {A} (l : list (option A)) : option (list A) :=
  match l with
  | [] => Some []
  | Some x :: l' => option_map (cons x) (all_some l')
  | None :: _ => None
  end.

(** [m21DatePrimitiveFromString] (m21utilities.py:2163-2255). *)
Definition m21DatePrimitiveFromString (s : str) : option dateprim :=
  match s with
  | [] => None
  | _ =>
      if 1 <? count_char "-" s then None
      else if (count_char "-" s =? 1) && existsb (head_in ["~"; "?"; ">"; "<"]%char) (split_char "-" s) then None
      else
        let '(rel, s) :=
          if head_in ["<"]%char s then (Some Prior, filter (fun c => negb (Ascii.eqb c "<")) s)
          else if head_in [">"]%char s then (Some After, filter (fun c => negb (Ascii.eqb c ">")) s)
          else (None, s) in
        let kind :=       (* the split dates and how they make up the object *)
          if char_in "-" s then let (a, b) := split_first "-" s in inl [a; b]
          else if char_in "^" s then let (a, b) := split_first "^" s in inl [a; b]
          else if char_in "|" s then inl (split_char "|" s)
          else inr s in
        match kind with
        | inr s =>
            match rel with
            | None =>
                let '(r, s) := if head_in ["~"]%char s then (SApproximate, tl s)
                               else if head_in ["?"]%char s then (SUncertain, tl s) else (Certain, s) in
                option_map (fun d => DateSingle d r) (dateFromString s)
            | Some r =>
                if head_in ["~"; "?"]%char s then None
                else option_map (fun d => DateRelative d r) (dateFromString s)
            end
        | inl ss =>
            if existsb (head_in ["~"; "?"]%char) ss then None
            else match all_some (map dateFromString ss) with
                 | None => None
                 | Some ds =>
                     if char_in "-" s || char_in "^" s
                     then match ds with [a; b] => Some (DateBetween a b) | _ => None end
                     else Some (DateSelection ds Or)
                 end
        end
  end.

(** ** ISO dates *)

Definition iso_suffix (e : option derr) : str :=
  match e with None => [] | Some Uncertain => S_ "?" | Some Approximate => S_ "~" end.
(** The loop of [isoDateFromM21Date] (m21utilities.py:2117-2138); [None]: returns ''. *)
Fixpoint iso_msgs (edtf : bool) (first : bool) (fs : list fld) : option (list str) :=
  match fs with
  | [] => Some []
  | None :: _ => Some []
  | Some (v, e) :: fs' =>
      if (match e with Some _ => negb edtf | None => false end) then None
      else option_map (cons (pad (if first then 4 else 2) v ++ iso_suffix e)) (iso_msgs edtf false fs')
  end.
(** [isoDateFromM21Date] (m21utilities.py:2115-2143). *)
Definition isoDateFromM21Date (edtf : bool) (d : date) : str :=
  match iso_msgs edtf true (fields d) with
  | None => []
  | Some msg =>
      join (S_ "-") (firstn 4 msg) ++ (if 4 <=? length msg then S_ "T" ++ join (S_ ":") (skipn 4 msg) else [])
  end.

(** A string argument of music21's [Date(...)]: error symbols are stripped as
    above, then [int()]; [None]: raises. *)
Definition date_arg (s : option str) : option fld :=
  match s with
  | None => Some None
  | Some s => let (v, e) := stripDateError s in option_map (fun n => Some (n, e)) (py_int v)
  end.
(** [m21DateFromIsoDate] (m21utilities.py:1890-1957). *)
Definition m21DateFromIsoDate (s : str) : option date :=
  match s with
  | [] => None
  | c :: _ =>
      if char_in "/" s || Ascii.eqb c "{" || Ascii.eqb c "[" then None
      else
        let parts :=
          if char_in "T" s then match split_char "T" s with [a; b] => Some (a, b) | _ => None end
          else if negb (char_in "-" s) && negb (char_in ":" s) then Some (s, [])
          else if char_in "-" s && negb (char_in ":" s) then Some (s, [])
          else if negb (char_in "-" s) && char_in ":" s then Some ([], s)
          else None in
        match parts with
        | None => None
        | Some (dt, tm) =>
            let ds := match dt with [] => [] | _ => split_char "-" dt end in
            let ts := match tm with [] => [] | _ => split_char ":" tm end in
            let ts := if 3 <=? length ts then ts else [] in
            match all_some (map date_arg [nth_error ds 0; nth_error ds 1; nth_error ds 2;
                                          nth_error ts 0; nth_error ts 1; nth_error ts 2]) with
            | None => None
            | Some fs => Some (date_of fs)
            end
        end
  end.

(** [isoDateFromM21DatePrimitive(…, edtf=True)['edtf']]
    (m21utilities.py:2043-2113); [None]: no such entry. *)
Definition edtfFromM21DatePrimitive (p : dateprim) : option str :=
  let iso d := match isoDateFromM21Date true d with [] => None | s => Some s end in
  match p with
  | DateSingle d _ => iso d
  | DateRelative d r =>
      option_map (fun s => match r with Prior | OnOrBefore => S_ "../" ++ s | _ => s ++ S_ "/.." end) (iso d)
  | DateBetween a b =>
      match iso a, iso b with Some x, Some y => Some (x ++ S_ "/" ++ y) | _, _ => None end
  | DateSelection l r =>
      option_map (fun ss => match r with
                            | And => S_ "{" ++ join (S_ ",") ss ++ S_ "}"
                            | Or => S_ "[" ++ join (S_ ",") ss ++ S_ "]"
                            end) (all_some (map iso l))
  end.

(** [s.strip(c)]. *)
Fixpoint lstrip (c : ascii) (s : str) : str :=
  match s with x :: s' => if Ascii.eqb x c then lstrip c s' else s | [] => [] end.
Definition strip_ch (c : ascii) (s : str) : str := rev (lstrip c (rev (lstrip c s))).
(** [removeSplitChars] (m21utilities.py:1801-1804). *)
Definition removeSplitChars (s : str) : str :=
  strip_ch "]" (strip_ch "[" (strip_ch "}" (strip_ch "{" s))).
(** [x in s] and [s.split(x)] for the two-character separator "..". *)
Fixpoint has_dots (s : str) : bool :=
  match s with a :: ((b :: _) as s') => (Ascii.eqb a "." && Ascii.eqb b ".") || has_dots s' | _ => false end.
Fixpoint split_dots (fuel : nat) (s : str) : list str :=
  match fuel with
  | O => [s]
  | S f =>
      match s with
      | [] => [[]]
      | a :: s' =>
          if starts_with (S_ "..") s then [] :: split_dots f (tl s')
          else match split_dots f s' with [] => [[a]] | w :: ws => (a :: w) :: ws end
      end
  end.
(** [m21DateListFromIsoDateList] (m21utilities.py:1879-1888). *)
Definition dates_of (ss : list str) : list date :=
  flat_map (fun s => match m21DateFromIsoDate s with Some d => [d] | None => [] end) ss.
Definition ends_with (p s : str) : bool := starts_with (rev p) (rev s).

(** [m21DatePrimitiveFromIsoDate] (m21utilities.py:1797-1877).  [None] also when
    music21 rejects a [DateBetween] that does not get two dates. *)
Definition m21DatePrimitiveFromIsoDate (s : str) : option dateprim :=
  let between ds := match ds with [a; b] => Some (DateBetween a b) | _ => None end in
  match s with
  | [] => None
  | c :: _ =>
      if 1 <? count_char "/" s then None
      else if Ascii.eqb c "{" || Ascii.eqb c "[" then
        if Ascii.eqb c "[" && has_dots s then between (dates_of (split_dots (S (length s)) (removeSplitChars s)))
        else Some (DateSelection (dates_of (split_char "," (removeSplitChars s))) (if Ascii.eqb c "{" then And else Or))
      else if char_in "/" s then
        if negb (has_dots s) then between (firstn 2 (dates_of (split_char "/" s)))
        else
          let rel := if starts_with (S_ "../") s then Some (Prior, skipn 3 s)
                     else if ends_with (S_ "/..") s then Some (After, firstn (length s - 3) s) else None in
          match rel with
          | None => None
          | Some (r, s') =>
              if char_in "/" s' then None else option_map (fun d => DateRelative d r) (m21DateFromIsoDate s')
          end
      else
        let '(r, s') := match rev s with
                        | x :: t => if Ascii.eqb x "~" then (SApproximate, rev t)
                                    else if Ascii.eqb x "?" then (SUncertain, rev t) else (Certain, s)
                        | [] => (Certain, s)
                        end in
        option_map (fun d => DateSingle d r) (m21DateFromIsoDate s')
  end.
