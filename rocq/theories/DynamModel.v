(** Dynamics and hairpins in Humdrum files: how the value of a dynamic, its
    place and the two ends of a hairpin are written into a dynam column
    (converter21/humdrum/m21convert.py, humdrumwriter.py), and how a dynam
    column is read (humdrumfile.py).  Strings are Latin-1. *)
From Coq Require Import ZArith.
From Verif Require Import PyStr LayoutModel BarModel DateModel.

(** ** The forms of a dynamic

    The four regular expressions of [dynamicPatterns] (m21convert.py:2178-2186)
    and of the reader (humdrumfile.py:8790-8801), as tests of a whole word.
    None of them has a word boundary inside, so greedy matching needs no
    backtracking. *)
Fixpoint skip_all (c : ascii) (s : str) : str :=
  match s with
  | x :: s' => if Ascii.eqb x c then skip_all c s' else s
  | [] => []
  end.
(** [c?] *)
Definition skip_opt (c : ascii) (s : str) : str :=
  match s with x :: s' => if Ascii.eqb x c then s' else s | [] => [] end.
(** [c+] *)
Definition skip_some (c : ascii) (s : str) : option str :=
  match s with x :: s' => if Ascii.eqb x c then Some (skip_all c s') else None | [] => None end.
Definition is_nil {A} (l : list A) : bool := match l with [] => true | _ => false end.

(** [m(f|p)] *)
Definition is_mezzo (w : str) : bool := str_eqb w (S_ "mf") || str_eqb w (S_ "mp").
(** [s?f+z?p+] *)
Definition is_fp (w : str) : bool :=
  match skip_some "f" (skip_opt "s" w) with
  | Some r => match skip_some "p" (skip_opt "z" r) with Some r' => is_nil r' | None => false end
  | None => false
  end.
(** [[sr]?f+z?] *)
Definition is_forte (w : str) : bool :=
  let body := match w with
              | c :: w' => if Ascii.eqb c "s" || Ascii.eqb c "r" then w' else w
              | [] => []
              end in
  match skip_some "f" body with Some r => is_nil (skip_opt "z" r) | None => false end.
(** [p+] *)
Definition is_piano (w : str) : bool :=
  match skip_some "p" w with Some r => is_nil r | None => false end.

(** [M21Convert.dynamicPatterns] (m21convert.py:2178-2186). *)
Definition dynamicPatterns : list (str -> bool) := [is_mezzo; is_fp; is_forte; is_piano].

(** [M21Convert.dynamicBrackets] (m21convert.py:2187-2192). *)
Definition dynamicBrackets : list (str * str * str) :=
  [ (S_ "brack", S_ "[ ", S_ " ]"); (S_ "paren", S_ "( ", S_ " )");
    (S_ "curly", S_ "{ ", S_ " }"); (S_ "angle", S_ "< ", S_ " >") ].

(** ** Writing the value *)

(** Python's [$]: at the end, or before a last newline. *)
Definition at_end (r : str) : bool := is_nil r || str_eqb r [newline].

Definition non_space (c : ascii) : bool := negb (is_space c).

(** [re.match('^' + patt + '$', value)], the text matched. *)
Definition match_whole (patt : str -> bool) (value : str) : option str :=
  let (w, r) := span non_space value in
  if patt w && at_end r then Some w else None.

(** [re.match('^' + start + patt + end + '$', value)]; the word inside, that is
    the text matched without its first two and last two characters. *)
Definition match_bracketed (patt : str -> bool) (start stop : str) (value : str) : option str :=
  if starts_with start value then
    let (w, r) := span non_space (skipn (length start) value) in
    if patt w && starts_with stop r && at_end (skipn (length stop) r) then Some w else None
  else None.

(** A match found by [re.search], as the text before it, the matched text and
    the word in it. *)
Record found := mkFound { f_before : str; f_match : str; f_word : str }.

(** The part [patt + endDelim] at the start of a text, after a matched [pre]. *)
Definition match_word (patt : str -> bool) (spaced : bool) (before pre s : str) : option found :=
  let (w, r) := span non_space s in
  if patt w then
    if spaced then match r with c :: _ => Some (mkFound before (pre ++ w ++ [c]) w) | [] => None end
    else if at_end r then Some (mkFound before (pre ++ w) w) else None
  else None.

(** [re.search(r'\s' + patt + endDelim, value)]: the leftmost match. *)
Fixpoint search_spaced (patt : str -> bool) (spaced : bool) (before s : str) : option found :=
  match s with
  | [] => None
  | c :: s' =>
      match (if is_space c then match_word patt spaced before [c] s' else None) with
      | Some f => Some f
      | None => search_spaced patt spaced (before ++ [c]) s'
      end
  end.

Inductive delim := AtStart | AfterSpace.
(** [re.search(startDelim + patt + endDelim, value)] (m21convert.py:2219-2222).
    The patterns only match letters, so a match that has to be followed by
    white space or by the end takes a whole word. *)
Definition search (patt : str -> bool) (d : delim) (spaced : bool) (value : str) : option found :=
  match d with
  | AtStart => match_word patt spaced [] [] value
  | AfterSpace => search_spaced patt spaced [] value
  end.

Fixpoint first_some {A B} (f : A -> option B) (l : list A) : option B :=
  match l with
  | [] => None
  | a :: l' => match f a with Some b => Some b | None => first_some f l' end
  end.

(** The three loops (m21convert.py:2219-2222, 2311-2314). *)
Definition attempts : list ((str -> bool) * delim * bool) :=
  flat_map (fun patt => [ (patt, AtStart, true); (patt, AtStart, false);
                          (patt, AfterSpace, true); (patt, AfterSpace, false) ]) dynamicPatterns.
Definition find_dynamic (value : str) : option (delim * bool * found) :=
  first_some (fun '(patt, d, spaced) =>
                match search patt d spaced value with
                | Some f => Some (d, spaced, f)
                | None => None
                end) attempts.

Definition find_whole (value : str) : option str :=
  first_some (fun patt => match_whole patt value) dynamicPatterns.
(** The two loops (m21convert.py:2205-2207, 2300-2302). *)
Definition find_bracketed (value : str) : option (str * str) :=
  first_some (fun patt =>
    first_some (fun '(name, start, stop) =>
                  match match_bracketed patt start stop value with
                  | Some w => Some (name, w)
                  | None => None
                  end) dynamicBrackets) dynamicPatterns.

(** [M21Convert.getDynamicString] (m21convert.py:2194-2231). *)
Definition getDynamicString (value : str) : str :=
  match find_whole value with
  | Some w => w
  | None =>
      match find_bracketed value with
      | Some (_, w) => w
      | None =>
          match find_dynamic value with
          | Some (_, _, f) => f_word f
          | None => value
          end
      end
  end.

(** [re.sub(old, new, s, count=1)] for an [old] and [new] without special
    characters. *)
Fixpoint replace_first (old new s : str) : str :=
  if starts_with old s then new ++ skipn (length old) s
  else match s with [] => [] | c :: s' => c :: replace_first old new s' end.

(** The substitution and the format (m21convert.py:2316-2326). *)
Definition last_of (s : str) : str := match rev s with c :: _ => [c] | [] => [] end.
Definition format_of (d : delim) (spaced : bool) (f : found) (value : str) : str :=
  let sub := S_ "%s" in
  let sub := match d with AfterSpace => firstn 1 (f_match f) ++ sub | AtStart => sub end in
  let sub := if spaced then sub ++ last_of (f_match f) else sub in
  replace_first (S_ "%s  ") (S_ "%s ") (replace_first (f_match f) sub value).

(** The part of [getDynamicParameters] about the text (m21convert.py:2298-2329),
    as a parameter without its colon. *)
Definition text_param (value : str) : option str :=
  if str_eqb (getDynamicString value) value then None
  else match find_bracketed value with
       | Some (name, _) => Some (S_ "ed=" ++ name)
       | None =>
           match find_dynamic value with
           | Some (d, spaced, f) => Some (S_ "t=" ++ format_of d spaced f value)
           | None => None
           end
       end.

(** ** Writing the place *)
Inductive place := Above | Below | Centered.
Inductive justify := JRight | JCenter.

(** A dynamic: its value, its placement ([Centered] is below with a vertical
    alignment in the middle), its justification.  Other style is not modelled. *)
Record dynamic := mkDynamic { d_value : str; d_place : option place; d_justify : option justify }.

(** [staffStr] (m21convert.py:2275-2277). *)
Definition staff_str (staffIndex : nat) : str :=
  if Nat.ltb 0 staffIndex then "="%char :: show_N (N.of_nat (staffIndex + 1)) else [].

(** The placement (m21convert.py:2279-2290, 2425-2439), the same for dynamics
    and hairpins. *)
Definition place_param (p : option place) (staffIndex : nat) : list str :=
  match p with
  | Some Above => [S_ "a" ++ staff_str staffIndex]
  | Some Below => [S_ "b" ++ staff_str staffIndex]
  | Some Centered => if Nat.eqb staffIndex 0 then [] else [S_ "c" ++ staff_str staffIndex]
  | None => []
  end.

(** [M21Convert.getDynamicParameters] (m21convert.py:2266-2331), as the list of
    parameters, each written with a colon before it. *)
Definition getDynamicParameters (d : dynamic) (staffIndex : nat) : list str :=
  place_param (d_place d) staffIndex
  ++ match d_justify d with Some JRight => [S_ "rj"] | Some JCenter => [S_ "cj"] | None => [] end
  ++ match text_param (d_value d) with Some p => [p] | None => [] end.

(** The layout comment of one dynamic or hairpin (humdrumwriter.py:2481-2488,
    2930-2941): none without parameters.  [n] is the number written when an
    earlier dynamic of this part and measure has been added to another one. *)
Definition layout_of (kind : str) (n : option nat) (params : list str) : list str :=
  match params with
  | [] => []
  | _ => [ S_ "!LO:" ++ kind
           ++ match n with Some k => S_ ":n=" ++ show_N (N.of_nat k) | None => [] end
           ++ flat_map (fun p => ":"%char :: p) params ]
  end.

(** ** Writing a dynam column

    What is put into the column at one moment: the dynamics and the ends of
    hairpins of the part. *)
Inductive wedge := Cresc | Dim.
Inductive piece := Dyn (text : str) | Start (k : wedge) | Stop (k : wedge).

(** [M21Convert.getDynamicWedgeString] (m21convert.py:2233-2258).  The writer
    always makes two events of a hairpin (measuredata.py:435-490), so the
    combined forms are not written. *)
Definition piece_text (p : piece) : str :=
  match p with
  | Dyn s => s
  | Start Cresc => S_ "<"
  | Start Dim => S_ ">"
  | Stop Cresc => S_ "["
  | Stop Dim => S_ "]"
  end.

(** The token of one moment: the first piece makes it, every later one is added
    behind a space (humdrumwriter.py:2462-2470, 2921-2928). *)
Definition add_piece (tok : option str) (p : piece) : option str :=
  match tok with
  | None => Some (piece_text p)
  | Some s => Some (s ++ S_ " " ++ piece_text p)
  end.
Definition dynam_token (ps : list piece) : option str := fold_left add_piece ps None.

(** ** Reading the value *)
Definition is_alpha (c : ascii) : bool := is_lower c || is_upper c.
(** The letters and the rest of a token (humdrumfile.py:8781-8788). *)
Definition letters (text : str) : str := filter is_alpha text.
Definition hairpins (text : str) : str := filter (fun c => negb (is_alpha c)) text.

(** The dynamic in the letters (humdrumfile.py:8790-8801); [before] is what the
    variable holds from an earlier column of the line. *)
Definition is_single (w : str) : bool := str_eqb w (S_ "f") || str_eqb w (S_ "p").
Definition dynamic_in (before ls : str) : str :=
  if is_forte ls then ls
  else if is_piano ls then ls
  else if is_mezzo ls || is_single ls then ls
  else if is_fp ls then ls
  else before.

(** The parameter sets of a token: the layout comments linked to it. *)
Definition sets_of (layouts : list str) : list paramset :=
  map (readParamString empty_paramset) layouts.
Definition of_kind (ns2 : str) (ps : paramset) : bool :=
  str_eqb (ps_ns1 ps) (S_ "LO") && str_eqb (ps_ns2 ps) ns2.
Fixpoint param (key : str) (l : list (str * str)) : option str :=
  match l with
  | [] => None
  | (k, v) :: l' => if str_eqb k key then Some v else param key l'
  end.

(** [_getLayoutParameterWithDefaults] without [n] (humdrumfile.py:10224-10267). *)
Definition layout_param (sets : list paramset) (ns2 key emptyValue absentValue : str) : str :=
  match first_some (fun ps => if of_kind ns2 ps then param key (ps_params ps) else None) sets with
  | Some [] => emptyValue
  | Some v => v
  | None => absentValue
  end.

(** The brackets (humdrumfile.py:8832-8869). *)
Definition in_brackets (sets : list paramset) (s : str) : str :=
  let wrap o c := S_ o ++ s ++ S_ c in
  let ed := layout_param sets (S_ "DY") (S_ "ed") (S_ "true") [] in
  if contains (S_ "brack") ed then wrap "[ "%string " ]"%string
  else if contains (S_ "paren") ed then wrap "( "%string " )"%string
  else if contains (S_ "curly") ed then wrap "{ "%string " }"%string
  else if contains (S_ "angle") ed then wrap "< "%string " >"%string
  else
    let p key := negb (is_nil (layout_param sets (S_ "DY") (S_ key) (S_ "true") [])) in
    if p "paren"%string then wrap "( "%string " )"%string
    else if p "brack"%string then wrap "[ "%string " ]"%string
    else if p "curly"%string then wrap "{ "%string " }"%string
    else if p "angle"%string then wrap "< "%string " >"%string
    else s.

(** The value (humdrumfile.py:8803-8809 and the brackets).  The text put in for
    [%s] has no special characters unless it comes from another column. *)
Definition dynamic_text (sets : list paramset) (dyn : str) : str :=
  let t := layout_param sets (S_ "DY") (S_ "t") [] [] in
  let dyn := if is_nil t then dyn else strip (replace (S_ "%s") (dyn ++ S_ " ") t) in
  in_brackets sets dyn.

(** One dynam token of a line (humdrumfile.py:8779-8882): the dynamic made, and
    what the variable [dynamic] holds afterwards. *)
Definition read_token (before : str) (text : str) (sets : list paramset) : option str * str :=
  match dynamic_in before (letters text) with
  | [] => (None, [])
  | dyn => let v := dynamic_text sets dyn in (Some v, v)
  end.

(** A dynamic written alone and read. *)
Definition round_value (n : option nat) (staffIndex : nat) (d : dynamic) : option str :=
  match dynam_token [Dyn (getDynamicString (d_value d))] with
  | Some tok => fst (read_token [] tok (sets_of (layout_of (S_ "DY") n (getDynamicParameters d staffIndex))))
  | None => None
  end.

(** ** Dynamics on notes

    A dynamic [sf] or [sfz] with a note at its place, not centred, is written
    with the note (measuredata.py:287-307, m21convert.py:2944-2969).  The letters
    after the z for the place are not modelled. *)
Definition note_signifier (value : str) : str :=
  if str_eqb (getDynamicString value) (S_ "sf") then S_ "z"
  else if str_eqb (getDynamicString value) (S_ "sfz") then S_ "zz"
  else [].
(** The reader of these (humdrumfile.py:8628, 8691-8694); no parameter for the
    text is looked at. *)
Definition read_signifier (text : str) : option str :=
  if char_in "z" text && negb (contains (S_ "zy") text)
  then Some (if contains (S_ "zz") text then S_ "sfz" else S_ "sf")
  else None.

(** ** The columns of a line *)
Inductive column :=
| Kern                                        (* a kern column *)
| Kernlike                                    (* another type with kern in its name *)
| Dynam (text : str) (sets : list paramset)   (* a dynam column *)
| Other.

(** The loop over the columns right of a note (humdrumfile.py:8735-8943): the
    number of the column and the value of each dynamic made.  [done] tells which
    columns have been looked at before. *)
Fixpoint columns_right (grace active : bool) (before : str) (done : list nat) (i : nat) (cs : list column)
  : list (nat * str) * list nat :=
  match cs with
  | [] => ([], done)
  | Kern :: cs' => if grace then columns_right grace true before done (S i) cs' else ([], done)
  | Kernlike :: cs' => columns_right grace false before done (S i) cs'
  | Other :: cs' => columns_right grace active before done (S i) cs'
  | Dynam text sets :: cs' =>
      if active then
        if existsb (Nat.eqb i) done then ([], done)
        else
          let (d, before) := read_token before text sets in
          let (ds, done) := columns_right grace active before (i :: done) (S i) cs' in
          (match d with Some v => (i, v) :: ds | None => ds end, done)
      else columns_right grace active before done (S i) cs'
  end.

(** A kern spine of the line: its layers, each with whether its token is a grace
    note, and the columns up to the next kern spine. *)
Record spine := mkSpine { sp_layers : list bool; sp_sides : list column }.
Definition spine_columns (sp : spine) : list column := map (fun _ => Kern) (sp_layers sp) ++ sp_sides sp.
Definition line_columns (sps : list spine) : list column := flat_map spine_columns sps.

(** The tokens of a spine whose first column has number [i], in their order. *)
Fixpoint read_layers (cols : list column) (staff i : nat) (graces : list bool) (done : list nat)
  : list (nat * nat * str) * list nat :=
  match graces with
  | [] => ([], done)
  | g :: graces' =>
      let (ds, done) := columns_right g true [] done (S i) (skipn (S i) cols) in
      let (out, done) := read_layers cols staff (S i) graces' done in
      (map (fun '(j, v) => (staff, j, v)) ds ++ out, done)
  end.

(** The dynamics of a line, as (staff, column of the dynamic, value): the staves
    are read from the rightmost spine to the leftmost (humdrumfile.py:651-667,
    1674-1678), the layers of a spine from the left; null tokens are looked at
    like notes (humdrumfile.py:2012-2022).  Staves are numbered here from the
    left. *)
Fixpoint read_spines (cols : list column) (staff i : nat) (sps : list spine) (done : list nat)
  : list (nat * nat * str) * list nat :=
  match sps with
  | [] => ([], done)
  | sp :: sps' =>
      let (out, done) := read_spines cols (S staff) (i + length (spine_columns sp)) sps' done in
      let (own, done) := read_layers cols staff i (sp_layers sp) done in
      (out ++ own, done)
  end.
Definition read_line (sps : list spine) : list (nat * nat * str) :=
  fst (read_spines (line_columns sps) 0 0 sps []).

(** ** Hairpins *)

(** [_getHairpinEnd] (humdrumfile.py:9447-9475): the tokens after this one; null
    tokens are not looked at.  The result is the number of the token and its
    text. *)
Fixpoint hairpin_end (endChar : ascii) (i : nat) (toks : list (option str)) : option (nat * str) :=
  match toks with
  | [] => None
  | None :: toks' => hairpin_end endChar (S i) toks'
  | Some text :: toks' =>
      if char_in endChar text then Some (i, text)
      else if existsb (fun c => is_alpha c || Ascii.eqb c "<" || Ascii.eqb c ">") text then None
      else hairpin_end endChar (S i) toks'
  end.

(** What is made of a token with a hairpin: a hairpin up to the start of another
    token, up to the end of the token where it ends, or a text. *)
Inductive hairpin :=
| Hairpin (k : wedge) (from upto : nat)
| HairpinThrough (k : wedge) (from through : nat)
| HairpinWord (k : wedge) (at_ : nat).

(** [_processHairpin] (humdrumfile.py:8956-9212), without its place. *)
Definition start_char (k : wedge) : ascii := match k with Cresc => "<" | Dim => ">" end.
Definition stop_char (k : wedge) : ascii := match k with Cresc => "[" | Dim => "]" end.
Definition processHairpin (i : nat) (hp : str) (after : list (option str)) : list hairpin :=
  let go k :=
    if contains [start_char k; stop_char k] hp || contains [start_char k; " "%char; stop_char k] hp
    then [HairpinThrough k i i]
    else match hairpin_end (stop_char k) (S i) after with
         | Some (j, text) =>
             if contains [stop_char k; stop_char k] text then [HairpinThrough k i j] else [Hairpin k i j]
         | None => [HairpinWord k i]
         end in
  if char_in "<" hp then go Cresc else if char_in ">" hp then go Dim else [].

(** The tokens of one dynam column, each with its line's notes to the left, and
    what is made of them: the dynamics and the hairpins. *)
Fixpoint read_hairpins (i : nat) (toks : list (option str)) : list hairpin :=
  match toks with
  | [] => []
  | None :: toks' => read_hairpins (S i) toks'
  | Some text :: toks' => processHairpin i (hairpins text) toks' ++ read_hairpins (S i) toks'
  end.
Fixpoint read_dynamics (i : nat) (toks : list (option str)) : list (nat * str) :=
  match toks with
  | [] => []
  | None :: toks' => read_dynamics (S i) toks'
  | Some text :: toks' =>
      match fst (read_token [] text []) with
      | Some v => (i, v) :: read_dynamics (S i) toks'
      | None => read_dynamics (S i) toks'
      end
  end.

(** ** Reading the place *)

(** [_hasAboveParameterStaffAdj] and its two companions (humdrumfile.py:12620-
    12657, 12690-12725, 12733-12771) for the key [key]; [old] is the other key
    that is looked for. *)
Definition adj_of_value (v : str) (staffAdj : Z) : Z :=
  if str_eqb v (S_ "true") then 0%Z
  else match v with
       | c :: _ =>
           if is_digit c then
             match py_int v with
             | Some n => if Z.eqb n 0 then 0%Z else (-(n - 1))%Z
             | None => staffAdj
             end
           else staffAdj
       | [] => staffAdj
       end.
Fixpoint place_in (key old : str) (l : list (str * str)) (staffAdj : Z) : option Z :=
  match l with
  | [] => None
  | (k, v) :: l' =>
      if str_eqb k key then Some (adj_of_value v staffAdj)
      else if str_eqb k old then Some staffAdj
      else place_in key old l' staffAdj
  end.
Definition hasPlaceParameter (key old : str) (sets : list paramset) (ns2 : str) (staffAdj : Z) : option Z :=
  first_some (fun ps => if of_kind ns2 ps then place_in key old (ps_params ps) staffAdj else None) sets.

(** What the staff says about its dynamics (humdrumfile.py:8602-8612). *)
Record staff_state := mkStaff { dynamPos : Z; dynamPosDefined : bool; dynamStaffAdj : Z; hasLyrics : bool }.

(** The flags from the parameters (humdrumfile.py:8811-8821, 9009-9020): the
    place asked for, if any, and the staff adjustment.  [sets] are those of the
    dynam token; [centerSets] those looked at for centring, which for a dynamic
    are those of the note. *)
Definition asked (ns2 : str) (sets centerSets : list paramset) (adj : Z) : option place * Z :=
  match hasPlaceParameter (S_ "a") (S_ "Z") sets ns2 adj with
  | Some a => (Some Above, a)
  | None =>
      match hasPlaceParameter (S_ "b") (S_ "Y") sets ns2 adj with
      | Some a => (Some Below, a)
      | None =>
          match hasPlaceParameter (S_ "c") (S_ "Y") centerSets ns2 adj with
          | Some a => (Some Centered, a)
          | None => (None, adj)
          end
      end
  end.

(** The place of a dynamic (humdrumfile.py:8602-8612, 8904-8925). *)
Definition dynamic_place (ss : staff_state) (q : option place) : option place :=
  let forceAbove := (0 <? dynamPos ss)%Z || ((dynamPos ss =? 0)%Z && negb (dynamPosDefined ss) && hasLyrics ss) in
  let force := negb (dynamPos ss =? 0)%Z in
  let forceBelow := (dynamPos ss <? 0)%Z in
  let forceCenter := ((dynamPos ss =? 0)%Z && dynamPosDefined ss) in
  let is_ p := match q, p with Some Above, Above | Some Below, Below | Some Centered, Centered => true | _, _ => false end in
  if is_ Above || (force && forceAbove) || (forceAbove && negb (is_ Below) && negb (is_ Centered)) then Some Above
  else if is_ Below || (force && forceBelow) || (forceBelow && negb (is_ Above) && negb (is_ Centered)) then Some Below
  else if is_ Centered || (force && forceCenter) || (forceCenter && negb (is_ Above) && negb (is_ Below)) then Some Centered
  else None.
(** The place of a hairpin (humdrumfile.py:8984-8998, 9041-9061): centring is
    asked first. *)
Definition hairpin_place (ss : staff_state) (q : option place) : option place :=
  let forceAbove := (0 <? dynamPos ss)%Z || ((dynamPos ss =? 0)%Z && negb (dynamPosDefined ss) && hasLyrics ss) in
  let force := negb (dynamPos ss =? 0)%Z in
  let forceBelow := (dynamPos ss <? 0)%Z in
  let forceCenter := ((dynamPos ss =? 0)%Z && dynamPosDefined ss) in
  let is_ p := match q, p with Some Above, Above | Some Below, Below | Some Centered, Centered => true | _, _ => false end in
  if is_ Centered || (force && forceCenter) || (forceCenter && negb (is_ Above) && negb (is_ Below)) then Some Centered
  else if is_ Above || (force && forceAbove) || (forceAbove && negb (is_ Below) && negb (is_ Centered)) then Some Above
  else if is_ Below || (force && forceBelow) || (forceBelow && negb (is_ Above) && negb (is_ Centered)) then Some Below
  else None.

(** The staff (humdrumfile.py:8896-8898, 9030-9032). *)
Definition new_staff (staffIndex staffCount : nat) (adj : Z) : Z :=
  Z.min (Z.max (Z.of_nat staffIndex - adj) 0) (Z.of_nat staffCount - 1).

(** The justification (humdrumfile.py:8823-8830); [layoutParameter] gives the
    first value of the key in a set of this kind (humdrumtoken.py:2845-2868). *)
Definition read_justify (sets : list paramset) : option justify :=
  let p key := layout_param sets (S_ "DY") (S_ key) [] [] in
  if str_eqb (p "rj"%string) (S_ "true") then Some JRight
  else if str_eqb (p "cj"%string) (S_ "true") then Some JCenter
  else None.

(** Place and staff of a dynamic and of a hairpin that is written and read: the
    note left of the dynam column is on the part's top staff, number [top]. *)
Definition round_place (ss : staff_state) (n : option nat) (d : dynamic) (staffIndex top staffCount : nat)
    (noteSets : list paramset) : option place * Z * option justify :=
  let sets := sets_of (layout_of (S_ "DY") n (getDynamicParameters d staffIndex)) in
  let (q, adj) := asked (S_ "DY") sets noteSets (dynamStaffAdj ss) in
  (dynamic_place ss q, new_staff top staffCount adj, read_justify sets).
Definition round_wedge_place (ss : staff_state) (n : option nat) (p : option place) (staffIndex top staffCount : nat)
    : option place * Z :=
  let sets := sets_of (layout_of (S_ "HP") n (place_param p staffIndex)) in
  let (q, adj) := asked (S_ "HP") sets sets (dynamStaffAdj ss) in
  (hairpin_place ss q, new_staff top staffCount adj).
