(** User signifiers: converter21/humdrum/humsignifiers.py, and the use of note and
    text marks in converter21/humdrum/humdrumfile.py. *)
From Verif Require Import PyStr LayoutModel BarModel.

(** ** Regular expressions *)

(** [re.search]: the first place from which the pattern matches. *)
Fixpoint search {A} (m : str -> option A) (s : str) : option A :=
  match m s with
  | Some x => Some x
  | None => match s with [] => None | _ :: r => search m r end
  end.

(** A literal word. *)
Fixpoint lit (w s : str) : option str :=
  match w with
  | [] => Some s
  | c :: w' => match s with
               | x :: s' => if Ascii.eqb c x then lit w' s' else None
               | [] => None
               end
  end.
Definition spaces (s : str) : str * str := span is_space s.
Definition skip_spaces (s : str) : str := snd (spaces s).

Definition dquote : ascii := """"%char.
(** An optional quote. *)
Definition opt_quote (s : str) : str :=
  match s with c :: r => if Ascii.eqb c dquote then r else s | [] => [] end.
(** Neither a quote nor a space. *)
Definition value_char (c : ascii) : bool := negb (Ascii.eqb c dquote) && negb (is_space c).
Definition not_quote (c : ascii) : bool := negb (Ascii.eqb c dquote).

(** humsignifiers.py:94, [EQUALSVALUE_PATTERN] after a word ([color], [fontstyle]):
    [\s*=\s*Q?\s*([^Q\s]+)\s*Q?] where Q is the double quote.  Giving back spaces or the quote never makes a
    match. *)
Definition value_here (word s : str) : option str :=
  match lit word s with
  | None => None
  | Some s1 =>
      match skip_spaces s1 with
      | c :: s2 =>
          if Ascii.eqb c "="%char then
            match span value_char (skip_spaces (opt_quote (skip_spaces s2))) with
            | ([], _) => None
            | (v, _) => Some v
            end
          else None
      | [] => None
      end
  end.
Definition find_value (word s : str) : option str := search (value_here word) s.

(** humsignifiers.py:95, [EQUALSVALUEWITHSPACES_PATTERN] after [text]:
    [\s*=\s*Q?([^Q]+)Q?].  If nothing stands behind the quote the last space is
    given back. *)
Definition text_here (s : str) : option str :=
  match lit (S_ "text") s with
  | None => None
  | Some s1 =>
      match skip_spaces s1 with
      | c :: s2 =>
          if Ascii.eqb c "="%char then
            let '(sp, s3) := spaces s2 in
            match span not_quote (opt_quote s3) with
            | ([], _) => match rev sp with x :: _ => Some [x] | [] => None end
            | (v, _) => Some v
            end
          else None
      | [] => None
      end
  end.
Definition find_text (s : str) : option str := search text_here s.

(** humsignifiers.py:92, [QUOTEDSTRING_PATTERN]: [\s*Q\s*([^Q]+)\s*Q]. *)
Definition quoted_here (s : str) : option str :=
  match skip_spaces s with
  | c :: s1 =>
      if Ascii.eqb c dquote then
        let '(sp, s2) := spaces s1 in
        match span not_quote s2 with
        | (v, _ :: _) => match v with
                         | [] => match rev sp with x :: _ => Some [x] | [] => None end
                         | _ => Some v
                         end
        | (_, []) => None
        end
      else None
  | [] => None
  end.
(** humsignifiers.py:93, [SPACEDSTRING_PATTERN]: [\s*([^\s]+)]. *)
Definition word_here (s : str) : option str :=
  match span (fun c => negb (is_space c)) (skip_spaces s) with ([], _) => None | (v, _) => Some v end.

(** ** One record *)

Record rdf := mkRdf { rd_interp : str; rd_sig : str; rd_def : str }.

Definition interp_char (c : ascii) : bool := negb (is_space c) && negb (Ascii.eqb c ":"%char).
Definition sig_char (c : ascii) : bool := negb (is_space c) && negb (Ascii.eqb c "="%char).

(** humsignifiers.py:44: [!!!RDF(\*\*[^\s:]+)\s*:\s*( .* )\s*$] on a line without
    newline: the dot star takes everything to the end. *)
Definition record_here (s : str) : option (str * str) :=
  match lit (S_ "!!!RDF**") s with
  | None => None
  | Some s1 =>
      match span interp_char s1 with
      | ([], _) => None
      | (e, s2) =>
          match skip_spaces s2 with
          | c :: s3 => if Ascii.eqb c ":"%char then Some (S_ "**" ++ e, skip_spaces s3) else None
          | [] => None
          end
      end
  end.

(** humsignifiers.py:53: [^\s*([^\s=]+)\s*=\s*( .* )\s*$]. *)
Definition sig_def (v : str) : option (str * str) :=
  match span sig_char (skip_spaces v) with
  | ([], _) => None
  | (x, s1) =>
      match skip_spaces s1 with
      | c :: s2 => if Ascii.eqb c "="%char then Some (x, skip_spaces s2) else None
      | [] => None
      end
  end.

(** humsignifiers.py:37-69, [parseSignifier]. *)
Definition parseSignifier (line : str) : option rdf :=
  match search record_here line with
  | None => None
  | Some (e, v) =>
      match sig_def v with
      | Some (x, d) => Some (mkRdf e x d)
      | None => Some (mkRdf e [] (skip_spaces v))
      end
  end.

(** ** What is known *)

Inductive space := Spaces | InvisibleRests | ImplicitSpaces | RecipSpaces.
Inductive switch := NoStem | CueSize | HairpinAccent | VerticalStroke | TerminalLong | Above | Below | Linked.
Inductive hairpin := Crescendo | Decrescendo.

Definition space_eqb (a b : space) : bool :=
  match a, b with
  | Spaces, Spaces | InvisibleRests, InvisibleRests | ImplicitSpaces, ImplicitSpaces | RecipSpaces, RecipSpaces => true
  | _, _ => false
  end.
Definition switch_eqb (a b : switch) : bool :=
  match a, b with
  | NoStem, NoStem | CueSize, CueSize | HairpinAccent, HairpinAccent | VerticalStroke, VerticalStroke
  | TerminalLong, TerminalLong | Above, Above | Below, Below | Linked, Linked => true
  | _, _ => false
  end.
Definition hairpin_eqb (a b : hairpin) : bool :=
  match a, b with Crescendo, Crescendo | Decrescendo, Decrescendo => true | _, _ => false end.

(** humsignifiers.py:99-160.  The attributes of one kind are one function. *)
Record known := mkKnown {
  k_space : space -> str;
  k_textMarks : list str; k_textColors : list str;
  k_noteMarks : list str; k_noteColors : list str; k_noteDirs : list str;
  k_hairText : hairpin -> str; k_hairStyle : hairpin -> str;
  k_switch : switch -> str;
  k_editorials : list str; k_editorialTypes : list str;
  k_phraseStyle : str; k_phraseIsSlur : bool; k_phraseColor : str }.

Definition nothing_known : known :=
  mkKnown (fun _ => []) [] [] [] [] [] (fun _ => []) (fun _ => []) (fun _ => []) [] [] [] false [].

Definition set_space (x : space) (v : str) (k : known) : known :=
  mkKnown (fun y => if space_eqb x y then v else k_space k y) (k_textMarks k) (k_textColors k) (k_noteMarks k) (k_noteColors k)
    (k_noteDirs k) (k_hairText k) (k_hairStyle k) (k_switch k) (k_editorials k) (k_editorialTypes k) (k_phraseStyle k)
    (k_phraseIsSlur k) (k_phraseColor k).
Definition add_text (m c : str) (k : known) : known :=
  mkKnown (k_space k) (k_textMarks k ++ [m]) (k_textColors k ++ [c]) (k_noteMarks k) (k_noteColors k)
    (k_noteDirs k) (k_hairText k) (k_hairStyle k) (k_switch k) (k_editorials k) (k_editorialTypes k) (k_phraseStyle k)
    (k_phraseIsSlur k) (k_phraseColor k).
Definition add_note (m c d : str) (k : known) : known :=
  mkKnown (k_space k) (k_textMarks k) (k_textColors k) (k_noteMarks k ++ [m]) (k_noteColors k ++ [c])
    (k_noteDirs k ++ [d]) (k_hairText k) (k_hairStyle k) (k_switch k) (k_editorials k) (k_editorialTypes k) (k_phraseStyle k)
    (k_phraseIsSlur k) (k_phraseColor k).
Definition set_hair (h : hairpin) (t : str) (style : option str) (k : known) : known :=
  mkKnown (k_space k) (k_textMarks k) (k_textColors k) (k_noteMarks k) (k_noteColors k)
    (k_noteDirs k) (fun y => if hairpin_eqb h y then t else k_hairText k y)
    (fun y => match style with Some v => if hairpin_eqb h y then v else k_hairStyle k y | None => k_hairStyle k y end)
    (k_switch k) (k_editorials k) (k_editorialTypes k) (k_phraseStyle k) (k_phraseIsSlur k) (k_phraseColor k).
Definition set_switch (x : switch) (v : str) (k : known) : known :=
  mkKnown (k_space k) (k_textMarks k) (k_textColors k) (k_noteMarks k) (k_noteColors k)
    (k_noteDirs k) (k_hairText k) (k_hairStyle k) (fun y => if switch_eqb x y then v else k_switch k y)
    (k_editorials k) (k_editorialTypes k) (k_phraseStyle k) (k_phraseIsSlur k) (k_phraseColor k).
Definition add_editorial (m t : str) (k : known) : known :=
  mkKnown (k_space k) (k_textMarks k) (k_textColors k) (k_noteMarks k) (k_noteColors k)
    (k_noteDirs k) (k_hairText k) (k_hairStyle k) (k_switch k) (k_editorials k ++ [m]) (k_editorialTypes k ++ [t])
    (k_phraseStyle k) (k_phraseIsSlur k) (k_phraseColor k).
Definition set_phrase (style : option str) (slur : bool) (color : option str) (k : known) : known :=
  mkKnown (k_space k) (k_textMarks k) (k_textColors k) (k_noteMarks k) (k_noteColors k)
    (k_noteDirs k) (k_hairText k) (k_hairStyle k) (k_switch k) (k_editorials k) (k_editorialTypes k)
    (match style with Some v => v | None => k_phraseStyle k end) (slur || k_phraseIsSlur k)
    (match color with Some v => v | None => k_phraseColor k end).

Definition or_else (o : option str) (d : str) : str := match o with Some x => x | None => d end.

(** humsignifiers.py:187-222, records without signifier. *)
Definition meta_record (d : str) (k : known) : known :=
  let c := find_value (S_ "color") d in
  if contains (S_ "show space") d then set_space Spaces (or_else c (S_ "hotpink")) k
  else if contains (S_ "show invisible rest") d then set_space InvisibleRests (or_else c (S_ "chartreuse")) k
  else if contains (S_ "show implicit space") d then set_space ImplicitSpaces (or_else c (S_ "blueviolet")) k
  else if contains (S_ "show recip space") d then set_space RecipSpaces (or_else c (S_ "royalblue")) k
  else k.

(** humsignifiers.py:231-239. *)
Definition text_record (x d : str) (k : known) : known :=
  if contains (S_ "marked text") d || contains (S_ "matched text") d
  then add_text x (or_else (find_value (S_ "color") d) (S_ "red")) k else k.

(** humsignifiers.py:244-264. *)
Definition hair_record (h : hairpin) (d : str) (k : known) : known :=
  match (match search quoted_here d with Some t => Some t | None => search word_here d end) with
  | Some t => set_hair h t (find_value (S_ "fontstyle") d) k
  | None => k
  end.
Definition dynam_record (x d : str) (k : known) : known :=
  if str_eqb x (S_ ">") then hair_record Decrescendo d k
  else if str_eqb x (S_ "<") then hair_record Crescendo d k
  else k.

(** humsignifiers.py:319-331. *)
Definition editorial_type (d : str) : str :=
  if contains (S_ "brack") d then S_ "brack"
  else if contains (S_ "paren") d then S_ "paren"
  else if contains (S_ "none") d then S_ "none" else [].
(** humsignifiers.py:345-357. *)
Definition phrase_style (d : str) : option str :=
  if contains (S_ "none") d then Some (S_ "none")
  else if contains (S_ "brack") d then Some (S_ "brack")
  else if contains (S_ "dot") d then Some (S_ "dot")
  else if contains (S_ "dash") d then Some (S_ "dash") else None.

(** humsignifiers.py:360-384. *)
Definition note_record (x d : str) (k : known) : known :=
  match find_value (S_ "color") d with
  | Some c => add_note x c (or_else (find_text d) []) k
  | None => if contains (S_ "marked note") d || contains (S_ "matched note") d
            then add_note x (S_ "red") (or_else (find_text d) []) k else k
  end.

(** humsignifiers.py:292-384: everything after the vertical strokes. *)
Definition kern_rest (x d : str) (k : known) : known :=
  if contains (S_ "terminal long") d || contains (S_ "long note") d then set_switch TerminalLong x k
  else if contains (S_ "above") d then set_switch Above x k
  else if contains (S_ "below") d then set_switch Below x k
  else if contains (S_ "link") d then set_switch Linked x k
  else if contains (S_ "editorial accidental") d then add_editorial x (editorial_type d) k
  else if contains (S_ "phrase") d then set_phrase (phrase_style d) (contains (S_ "slur") d) (find_value (S_ "color") d) k
  else note_record x d k.
(** humsignifiers.py:267-290; the branch of vertical strokes goes on. *)
Definition kern_record (x d : str) (k : known) : known :=
  if contains (S_ "no stem") d then set_switch NoStem x k
  else if contains (S_ "cue size") d then set_switch CueSize x k
  else if contains (S_ "hairpin accent") d then set_switch HairpinAccent x k
  else kern_rest x d (if contains (S_ "vertical stroke") d then set_switch VerticalStroke x k else k).

(** humsignifiers.py:185-384, one turn of the loop of [generateKnownInfo]. *)
Definition learn (k : known) (r : rdf) : known :=
  if str_eqb (rd_sig r) [] && str_eqb (rd_interp r) (S_ "**kern") then meta_record (rd_def r) k
  else if str_eqb (rd_sig r) [] then k
  else if str_eqb (rd_interp r) (S_ "**silbe") || str_eqb (rd_interp r) (S_ "**text") then text_record (rd_sig r) (rd_def r) k
  else if str_eqb (rd_interp r) (S_ "**dynam") then dynam_record (rd_sig r) (rd_def r) k
  else if str_eqb (rd_interp r) (S_ "**kern") then kern_record (rd_sig r) (rd_def r) k
  else k.
Definition generateKnownInfo (l : list rdf) : known := fold_left learn l nothing_known.

(** humdrumline.py:381-384, [isSignifier]. *)
Definition isSignifier (line : str) : bool :=
  negb (Nat.ltb (length line) 9) && starts_with (S_ "!!!RDF**") line.

(** humdrumfilestructure.py:989-994, [analyzeSignifiers]. *)
Definition add_line (l : list rdf) (line : str) : list rdf :=
  if isSignifier line then match parseSignifier line with Some r => l ++ [r] | None => l end else l.
Definition analyzeSignifiers (lines : list str) : known := generateKnownInfo (fold_left add_line lines []).

(** ** Use *)

(** humdrumfile.py:7852-7865, [_colorNote]: the colour of a note, from the colour of
    its spine.  [None]: an index error. *)
Fixpoint mark_color (tstring : str) (marks colors : list str) : option (option str) :=
  match marks with
  | [] => Some None
  | m :: ms =>
      if contains m tstring then match colors with c :: _ => Some (Some c) | [] => None end
      else mark_color tstring ms (tl colors)
  end.
Definition colorNote (k : known) (spineColor : option str) (tstring : str) : option (option str) :=
  match mark_color tstring (k_noteMarks k) (k_noteColors k) with
  | Some (Some c) => Some (Some c)
  | Some None => Some spineColor
  | None => None
  end.

(** [re.sub(mark, '', text)] for a mark of one character. [None]: the mark is no
    regular expression.  A mark of several characters is removed as it stands if
    none of them is special; other marks are not modelled. *)
Definition plain_char (c : ascii) : bool := negb (char_in c (S_ ".^$*+?{}[]\|()")).
Fixpoint remove_all (fuel : nat) (m s : str) : str :=
  match fuel with
  | O => s
  | S f => match s with
           | [] => []
           | c :: r => if starts_with m s then remove_all f m (skipn (length m) s) else c :: remove_all f m r
           end
  end.
Definition sub_mark (m s : str) : option str :=
  match m with
  | [c] =>
      if char_in c (S_ "*+?([\)") then None
      else if Ascii.eqb c "."%char then Some (filter (fun x => Ascii.eqb x newline) s)
      else if char_in c (S_ "^$|") then Some s
      else Some (filter (fun x => negb (Ascii.eqb x c)) s)
  | _ => if forallb plain_char m then Some (remove_all (length s) m s) else None
  end.

(** humdrumfile.py:8231-8241, [_colorVerse]: the colour set and the text left.
    [None]: an exception (or a mark not modelled). *)
Fixpoint colorVerse (pairs : list (str * str)) (text : str) : option (option str * str) :=
  match pairs with
  | [] => Some (None, text)
  | (m, c) :: r =>
      if contains m text then match sub_mark m text with Some t => Some (Some c, t) | None => None end
      else colorVerse r text
  end.
Fixpoint zip {A B} (a : list A) (b : list B) : list (A * B) :=
  match a, b with x :: a', y :: b' => (x, y) :: zip a' b' | _, _ => [] end.
Definition verse_color (k : known) (text : str) : option (option str * str) :=
  colorVerse (zip (k_textMarks k) (k_textColors k)) text.
