(** Lyrics of Humdrum files: how the exporter writes those of a note, and how
    the importer reads them back. *)
From Coq Require Import List Ascii String Arith NArith ZArith Lia Bool.
From Verif Require Import PyStr LayoutModel SignifierModel.
Import ListNotations.

(** ** Export *)

(** A lyric of a music21 note as the exporter sees it: its number, its raw text
    (the text with the hyphens of its syllabic position, and the parts of an
    elision), and its identifier if one was set ([None]: [verse.identifier]
    returns [verse.number]). *)
Record lyric := mkLyr { ly_num : Z; ly_raw : str; ly_id : option str }.

(** [text.split()]: the words between the white space.  [cur] is the word being
    read, in reverse. *)
Fixpoint words_acc (cur s : str) : list str :=
  match s with
  | [] => match cur with [] => [] | _ => [rev cur] end
  | c :: r =>
      if is_space c then match cur with [] => words_acc [] r | _ => rev cur :: words_acc [] r end
      else words_acc (c :: cur) r
  end.
Definition py_words (s : str) : list str := words_acc [] s.

(** humdrumwriter.py:3312-3320, [_cleanSpaces]. *)
Definition cleanSpaces (s : str) : str := join (S_ " ") (py_words s).

(** [verses[i] = x] for an index in range. *)
Fixpoint set_at {A} (i : nat) (x : A) (l : list A) : list A :=
  match l, i with
  | [], _ => []
  | _ :: r, O => x :: r
  | y :: r, S j => y :: set_at j x r
  end.

(** humdrumwriter.py:3245-3262: the verses by number; [None]: a number over 100. *)
Definition order_step (verses : list (option lyric)) (l : lyric) : list (option lyric) :=
  let len := Z.of_nat (length verses) in
  let i := Z.to_nat (ly_num l - 1) in
  if (ly_num l =? len + 1)%Z then verses ++ [Some l]
  else if ((0 <? ly_num l) && (ly_num l <? len))%Z then set_at i (Some l) verses
  else if (0 <? ly_num l)%Z then
    set_at i (Some l) (verses ++ repeat None (Z.to_nat (ly_num l) - length verses))
  else verses.
Fixpoint order (verses : list (option lyric)) (ls : list lyric) : option (list (option lyric)) :=
  match ls with
  | [] => Some verses
  | l :: r => if (100 <? ly_num l)%Z then None else order (order_step verses l) r
  end.

(** humdrumwriter.py:3269-3278, 3292-3296: the token of a verse. *)
Definition verse_token (v : option lyric) : str :=
  let t := match v with
           | None => []
           | Some l =>
               match cleanSpaces (ly_raw l) with
               | c :: r => if char_in c (S_ "!*") then "\"%char :: c :: r else c :: r
               | [] => []
               end
           end in
  match t with [] => S_ "." | _ => t end.

(** humdrumwriter.py:3280-3290: the token of its label. *)
Definition verse_label (v : option lyric) : option str :=
  match v with
  | Some (mkLyr _ _ (Some (c :: r))) => Some (S_ "*v:" ++ c :: r)
  | _ => None
  end.

(** gridside.py:64-78, [setVerse]. *)
Definition setVerse (i : nat) (tok : str) (verses : list (option str)) : list (option str) :=
  if i =? length verses then verses ++ [Some tok]
  else if i <? length verses then set_at i (Some tok) verses
  else set_at i (Some tok) (verses ++ repeat None (S i - length verses)).

Fixpoint setVerses (i : nat) (toks : list str) (verses : list (option str)) : list (option str) :=
  match toks with
  | [] => verses
  | t :: r => setVerses (S i) r (setVerse i t verses)
  end.
(** gridmeasure.py:967-969 and 987-989: only the labels that exist are set. *)
Fixpoint setLabels (i : nat) (toks : list (option str)) (verses : list (option str)) : list (option str) :=
  match toks with
  | [] => verses
  | t :: r => setLabels (S i) r (match t with Some x => setVerse i x verses | None => verses end)
  end.

(** gridslice.py:599-608: the fields of one staff on one line. *)
Definition side_fields (empty : str) (maxv : nat) (verses : list (option str)) : list str :=
  map (fun v => match v with Some t => t | None => empty end) verses
  ++ repeat empty (maxv - length verses).

(** humdrumwriter.py:3225-3304, [_addLyrics], for a staff whose line has no
    lyrics yet (one voice has lyrics on it): the label line put before the line
    of the note, if there is one, and the fields of the note's own line. *)
Record written := mkWritten { w_labels : option (list str); w_verses : list str }.
Definition addLyrics (maxv : nat) (ls : list lyric) : written :=
  match order [] ls with
  | None => mkWritten None (side_fields (S_ ".") maxv [])
  | Some vs =>
      let labels := map verse_label vs in
      mkWritten
        (if existsb (fun x => match x with Some _ => true | None => false end) labels
         then Some (side_fields (S_ "*") maxv (setLabels 0 labels [])) else None)
        (side_fields (S_ ".") maxv (setVerses 0 (map verse_token vs) []))
  end.

(** ** Import *)

(** The kind of a lyrics spine (humdrumfile.py:8003-8014). *)
Inductive vkind := KText | KSilbe | KVdata | KVVdata.

(** A field to the right of the note: its spine, the kind of the spine, its text. *)
Record field := mkField { f_spine : nat; f_kind : vkind; f_text : str }.

(** A verse put on the note: number, identifier, colour given by a mark, whether
    its text is taken as it is, and the texts of its parts (more than one: the
    parts of an elision, each of which has its hyphens parsed). *)
Record verse := mkVerse { v_num : nat; v_label : option str; v_color : option str; v_asis : bool; v_parts : list str }.

(** humdrumtoken.py:2281-2284. *)
Definition is_null (t : str) : bool := str_eqb t (S_ ".") || str_eqb t (S_ "*") || str_eqb t (S_ "!").

(** humdrumfile.py:8135-8150, [_getVerseLabelText]: [re_search pattern text] is
    [re.search], [None] when the pattern is no regular expression.  As in the
    code, the label is the pattern. *)
Definition getVerseLabelText (re_search : str -> str -> option bool) (tok : str) : option str :=
  if starts_with (S_ "*v:") tok then
    let contents := skipn 3 tok in
    match re_search contents (S_ "^\d+$") with
    | None => None
    | Some true => Some (contents ++ S_ ".")
    | Some false => Some contents
    end
  else Some [].

(** humdrumfile.py:8205-8224, [_getVerseLabels]: those of the spine, and the rest. *)
Definition getVerseLabels (spine : nat) (labels : list (nat * str)) : list str * list (nat * str) :=
  (map snd (filter (fun l => fst l =? spine) labels), filter (fun l => negb (fst l =? spine)) labels).

(** humdrumfile.py:8158-8174, [_splitSyllableBySpaces]. *)
Definition splitSyllableBySpaces (t : str) : list str := split_char " "%char t.

(** humdrumfile.py:8039-8045: the replacements of a **silbe** token. *)
Definition u_uml : ascii := ascii_of_N 252.
Definition a_uml : ascii := ascii_of_N 228.
Definition o_uml : ascii := ascii_of_N 246.
Definition silbe_text (t : str) : str :=
  replace (S_ "\o3") [o_uml] (replace (S_ "\a3") [a_uml] (replace (S_ "\u3") [u_uml]
    (replace (S_ "o2") [o_uml] (replace (S_ "a2") [a_uml] (replace (S_ "u2") [u_uml]
      (replace (S_ "|") [] t)))))).

(** humdrumfile.py:8090-8102: the parts of a syllable with elisions.  [cur] is
    the part being read, in reverse; [s] what is left, from the character at [z]. *)
Fixpoint elide (cur s : str) : list str :=
  match s with
  | [] => [rev cur]
  | [c] => [rev (c :: cur)]
  | c :: ((d :: _) as r) =>
      if (Ascii.eqb c " "%char || Ascii.eqb c nbsp) && negb (Ascii.eqb d "'"%char)
      then rev cur :: elide [] r
      else elide (c :: cur) r
  end.
(** [content[0]] of an empty text is an error. *)
Definition parts (content : str) : option (list str) :=
  match content with [] => None | c :: r => Some (elide [c] r) end.

(** humdrumfile.py:8060-8126: one text of one field. *)
Definition read_text (html : str -> str) (colors : list (str * str)) (num : nat) (label : option str)
  (kind : vkind) (content : str) : option (option verse) :=
  match content with
  | [] => Some None
  | _ =>
      match kind with
      | KVdata | KVVdata => Some (Some (mkVerse num label None true [content]))
      | _ =>
          match colorVerse colors content with
          | None => None
          | Some (col, text) =>
              match parts text with
              | None => None
              | Some ps => Some (Some (mkVerse num label col false
                             (map (fun p => replace (S_ "\n") [newline] (html p)) ps)))
              end
          end
      end
  end.

(** humdrumfile.py:7986-8126, the loop of [_convertVerses] over the lyrics fields
    of the staff: the verses and the labels not yet used.  The texts are zipped
    with the list of their tokens, which has one element, so a **vvdata** field
    yields its first word only.  The colours of spines and the `ij` italics are
    not modelled.  [None]: an exception. *)
Definition label_of (re_search : str -> str -> option bool) (ls : list str) : option (option str) :=
  match ls with
  | [] => Some None
  | l :: _ => match getVerseLabelText re_search l with
              | None => None
              | Some [] => Some None
              | Some t => Some (Some t)
              end
  end.
Fixpoint convertVerses (html : str -> str) (re_search : str -> str -> option bool) (colors : list (str * str))
  (labels : list (nat * str)) (num : nat) (fs : list field) : option (list verse * list (nat * str)) :=
  match fs with
  | [] => Some ([], labels)
  | f :: r =>
      let t := f_text f in
      let silbe := match f_kind f with KSilbe => true | _ => false end in
      if is_null t || (silbe && str_eqb t (S_ "|")) then convertVerses html re_search colors labels (S num) r
      else
        let (mine, rest) := getVerseLabels (f_spine f) labels in
        match label_of re_search mine with
        | None => None
        | Some label =>
            let texts := match f_kind f with
                         | KSilbe => [silbe_text t]
                         | KVVdata => splitSyllableBySpaces t
                         | _ => [t]
                         end in
            match read_text html colors (S num) label (f_kind f) (hd [] texts) with
            | None => None
            | Some v =>
                match convertVerses html re_search colors rest (S num) r with
                | None => None
                | Some (vs, ls) => Some (match v with Some x => x :: vs | None => vs end, ls)
                end
            end
        end
  end.

(** What a layer has on a line. *)
Inductive lkind := LNote | LRest | LNull.

(** A line of a measure of one staff with lyrics spines: one of labels (any
    interpretation line), or one of notes with the fields of the verses. *)
Inductive sline :=
| SLabels (labels : list field)
| SNotes (layers : list lkind) (fs : list field).

(** humdrumtoken.py:2296-2317, [noteInLowerSubtrack]: is there a note in a layer
    before this one? *)
Definition note_below (layer : nat) (ks : list lkind) : bool :=
  existsb (fun k => match k with LNote => true | _ => false end) (firstn layer ks).

(** humdrumfile.py:8181-8199, [_checkForVerseLabels]. *)
Definition checkForVerseLabels (fs : list field) (labels : list (nat * str)) : list (nat * str) :=
  labels ++ map (fun f => (f_spine f, f_text f))
    (filter (fun f => match f_kind f with KText => starts_with (S_ "*v:") (f_text f) | _ => false end) fs).

(** One layer of a measure (humdrumfile.py:1960-2120, only what concerns lyrics):
    for each of its notes, the verses put on it. *)
Section Layers.
Context (html : str -> str) (re_search : str -> str -> option bool) (colors : list (str * str)).
Fixpoint read_layer (layer : nat) (labels : list (nat * str)) (ls : list sline) : option (list (list verse) * list (nat * str)) :=
  match ls with
  | [] => Some ([], labels)
  | SLabels fs :: r => read_layer layer (checkForVerseLabels fs labels) r
  | SNotes ks fs :: r =>
      match nth_error ks layer with
      | Some LNote =>
          match (if note_below layer ks then Some ([], labels)
                 else convertVerses html re_search colors labels 0 fs) with
          | None => None
          | Some (vs, labels') =>
              match read_layer layer labels' r with
              | None => None
              | Some (out, l2) => Some (vs :: out, l2)
              end
          end
      | _ => read_layer layer labels r
      end
  end.
(** The layers of a measure one after the other, [n] of them. *)
Fixpoint read_layers (n layer : nat) (labels : list (nat * str)) (ls : list sline) : option (list (list (list verse)) * list (nat * str)) :=
  match n with
  | O => Some ([], labels)
  | S n' => match read_layer layer labels ls with
            | None => None
            | Some (out, l1) => match read_layers n' (S layer) l1 ls with
                                | None => None
                                | Some (outs, l2) => Some (out :: outs, l2)
                                end
            end
  end.
(** The measures of a staff, each with its number of layers. *)
Fixpoint read_staff (labels : list (nat * str)) (ms : list (nat * list sline)) : option (list (list (list (list verse)))) :=
  match ms with
  | [] => Some []
  | (n, ls) :: r => match read_layers n 0 labels ls with
                    | None => None
                    | Some (out, l1) => match read_staff l1 r with
                                        | None => None
                                        | Some outs => Some (out :: outs)
                                        end
                    end
  end.
End Layers.
