(** Models of converter21/humdrum/humparamset.py, of the layout-parameter part
    of humdrumline.py, and of the layout text writer of m21convert.py and its
    reader in humdrumfile.py. *)
From Verif Require Import PyStr HashModel.

(** [s.split(sep, 1)]: at most one split, on the first separator. *)
Fixpoint split1 (sep : ascii) (s : str) : str * option str :=
  match s with
  | [] => ([], None)
  | c :: s' => if Ascii.eqb c sep then ([], Some s')
               else let (a, b) := split1 sep s' in (c :: a, b)
  end.

(** [HumParamSet] (humparamset.py:18-41); the token is not modelled. *)
Record paramset := ParamSet { ps_ns1 : str; ps_ns2 : str; ps_params : list (str * str) }.

Definition empty_paramset : paramset := ParamSet [] [] [].

(** The loop "step over any bangs" (humparamset.py:146-152).  When the text is
    only bangs, [firstNonBang] stays 0 and nothing is skipped. *)
Fixpoint drop_bangs (s : str) : option str :=
  match s with
  | [] => None
  | c :: s' => if Ascii.eqb c "!"%char then drop_bangs s' else Some s
  end.
Definition skip_bangs (s : str) : str := match drop_bangs s with Some r => r | None => s end.

(** One piece (humparamset.py:166-175).  The result of
    [piece.replace('&colon;', ':')] is discarded by the code. *)
Definition name_value (piece : str) : str * str :=
  match split1 "="%char piece with
  | (name, None) => (name, S_ "true")
  | (name, Some value) => (name, value)
  end.

(** [HumParamSet.readString] (humparamset.py:144-176). *)
Definition readParamString (ps : paramset) (text : str) : paramset :=
  match split_char ":"%char (skip_bangs text) with
  | n1 :: n2 :: p :: ps' =>
      ParamSet n1 n2 (ps_params ps ++ map name_value (p :: ps'))
  | _ => ps
  end.

(** [getParameterName], [getParameterValue], [count] are list accesses
    (humparamset.py:84-109); [setParameter] (humparamset.py:125-133). *)
Fixpoint setParameter (name value : str) (l : list (str * str)) : list (str * str) :=
  match l with
  | [] => [(name, value)]
  | (n, v) :: l' => if str_eqb n name then (n, value) :: l' else (n, v) :: setParameter name value l'
  end.

(** [HumdrumLine.setParameters] (humdrumline.py:1146-1168): the calls of
    [setValue] made on the line's first token, as (arguments, value).
    [re.sub('&colon', ':', piece)] replaces without the semicolon, and
    [piece.split('=')] keeps only the part up to a second equals sign. *)
Definition lineParameters (pdata : str) : list (list str * str) :=
  match split_char ":"%char pdata with
  | ns1 :: ns2 :: p :: ps =>
      map (fun piece =>
             let piece := replace (S_ "&colon") (S_ ":") piece in
             match split_char "="%char piece with
             | key :: value :: _ => ([ns1; ns2; key], value)
             | [key] => ([ns1; ns2; key], S_ "true")
             | [] => ([ns1; ns2; []], S_ "true")
             end) (p :: ps)
      ++ [([S_ "global"], S_ "true")]
  | _ => []
  end.

(** Non-breaking space (U+00A0). *)
Definition nbsp : ascii := ascii_of_N 160.
Definition newline : ascii := ascii_of_N 10.
Definition tab : ascii := ascii_of_N 9.

(** [str.isspace] on one Latin-1 character. *)
Definition is_space (c : ascii) : bool :=
  let n := N_of_ascii c in
  ((9 <=? n) && (n <=? 13) || (28 <=? n) && (n <=? 32) || (n =? 133) || (n =? 160))%N.

Fixpoint lstrip (s : str) : str :=
  match s with
  | [] => []
  | c :: s' => if is_space c then lstrip s' else s
  end.
(** [s.strip()]. *)
Definition strip (s : str) : str := rev (lstrip (rev (lstrip s))).

(** One character of [M21Convert._cleanSpacesAndColons] (m21convert.py:1940-1960). *)
Definition clean_char (c : ascii) : str :=
  if Ascii.eqb c nbsp then S_ "&nbsp;"
  else if Ascii.eqb c ":"%char then S_ "&colon;"
  else if Ascii.eqb c newline then S_ "\n"
  else if (N_of_ascii c =? 9)%N || (N_of_ascii c =? 13)%N || (N_of_ascii c =? 11)%N || (N_of_ascii c =? 12)%N
       then S_ " "
  else [c].

(** [M21Convert._cleanSpacesAndColons] (m21convert.py:1937-1965). *)
Definition cleanSpacesAndColons (s : str) : str := strip (flat_map clean_char s).

(** [M21Convert.textLayoutParameterFromM21Pieces] (m21convert.py:1724-1793).
    [pieces] are the placement, style, justification and colour parts, each
    without its leading colon.  [translateSMUFLNotesToNoteNames] returns texts
    without SMUFL characters unchanged; those are outside Latin-1. *)
Definition textLayoutParameter (pieces : list str) (content : str) : str :=
  S_ "!LO:TX" ++ flat_map (fun p => ":"%char :: p) pieces ++ S_ ":t=" ++ cleanSpacesAndColons content.

(** Python's [html.unescape], restricted to the two entities the exporter
    writes.  It agrees with Python's on texts whose ampersands all start one of
    them. *)
Fixpoint unescape_fuel (fuel : nat) (s : str) : str :=
  match fuel with
  | O => s
  | S f =>
      match s with
      | [] => []
      | c :: s' =>
          if starts_with (S_ "&colon;") s then ":"%char :: unescape_fuel f (skipn 7 s)
          else if starts_with (S_ "&nbsp;") s then nbsp :: unescape_fuel f (skipn 6 s)
          else c :: unescape_fuel f s'
      end
  end.
Definition html_unescape (s : str) : str := unescape_fuel (S (length s)) s.

(** The part of [_processLinkedDirection] that finds the text
    (humdrumfile.py:9666-9678): the last parameter named [t]; an empty one stops
    the processing ([None]).  Only the text is modelled, not its style. *)
Fixpoint direction_text (params : list (str * str)) (text : str) : option str :=
  match params with
  | [] => Some text
  | (k, v) :: ps =>
      if str_eqb k (S_ "t") then match v with [] => None | _ => direction_text ps v end
      else direction_text ps text
  end.

(** The text shown for a layout token (humdrumfile.py:9609-9619, 9666-9752). *)
Definition importLayoutText (token : str) : option str :=
  let hps := readParamString empty_paramset token in
  if str_eqb (ps_ns1 hps) (S_ "LO") && str_eqb (ps_ns2 hps) (S_ "TX") then
    match direction_text (ps_params hps) [] with
    | None => None
    | Some text => Some (strip (replace (S_ "\n") [newline] (html_unescape text)))
    end
  else None.
