(** Models of the parts of humdrum/humdrumfile.py that decide, when a Humdrum
    file is imported, which lines belong to which measure. *)
From Verif Require Import PyStr LayoutModel TextModel SpineModel.

(** [HumdrumLine.isBarline] (humdrumline.py:524-525 with humdrumtoken.py,
    [isBarline]): the first token starts with an equals sign.  A line without
    tokens (tabs only) raises IndexError, here it is no barline. *)
Definition isBarlineLine (text : str) : bool :=
  match tokens text with [] => false | t :: _ => starts_with (S_ "=") t end.
(** [HumdrumLine.isData] (humdrumline.py:547-550). *)
Definition isDataLine (text : str) : bool :=
  negb (starts_with (S_ "!") text || isInterpretationLine text || isBarlineLine text
        || match text with [] => true | _ => false end).

(** The loop of [_measureEndLineIndex] (humdrumfile.py:10731-10748) from line
    [i] on.  [allSameBarlineStyle] (humdrumline.py:1275-1276) is always true: no
    code sets the parameter it reads (the call of analyzeBarlines is commented
    out, humdrumfilecontent.py:87). *)
Fixpoint scan_measure (i : nat) (found : bool) (rest : list str) : option nat * bool :=
  match rest with
  | [] => (None, found)
  | l :: rest' =>
      if isDataLine l then scan_measure (S i) true rest'
      else if isBarlineLine l then (Some i, found)
      else scan_measure (S i) found rest'
  end.

(** [_measureEndLineIndex] (humdrumfile.py:10730-10756); negative when the
    measure has no data. *)
Definition measureEndLineIndex (lines : list str) (start : nat) : Z :=
  let (e, found) := scan_measure (S start) false (skipn (S start) lines) in
  let endIdx := match e with Some i => i | None => length lines - 1 end in
  if found then Z.of_nat endIdx else (- Z.of_nat endIdx)%Z.

(** The last loop of [_repositionStartIndex] (humdrumfile.py:1056-1061) from
    line [i] on. *)
Fixpoint first_spined (i : nat) (rest : list str) : nat :=
  match rest with
  | [] => i - 1
  | l :: rest' => if hasSpines l then i else first_spined (S i) rest'
  end.

(** [_repositionStartIndex] (humdrumfile.py:1047-1062). *)
Definition repositionStartIndex (lines : list str) (start : nat) : nat :=
  let s := if existsb isDataLine (firstn (S start) lines) then start else 0 in
  match nth s lines [] with
  | [] => first_spined (S s) (skipn (S s) lines)
  | _ => s
  end.

(** [_measureKey] (humdrumfile.py:12357-12364). *)
Definition measureKey (lines : list str) (lineIdx : nat) : option nat * nat :=
  let e := measureEndLineIndex lines lineIdx in
  if (e <? 0)%Z then (None, Z.to_nat (- e)%Z)
  else (Some (repositionStartIndex lines lineIdx), Z.to_nat e).

(** The loops over all measures (humdrumfile.py:690-693, 703-705, 12495-12509):
    the keys of the measures that have data, in order. *)
Fixpoint measure_loop (fuel : nat) (lines : list str) (lineIdx : nat) : list (nat * nat) :=
  match fuel with
  | O => []
  | S f =>
      if lineIdx <? length lines - 1 then
        match measureKey lines lineIdx with
        | (None, e) => measure_loop f lines e
        | (Some s, e) => (s, e) :: measure_loop f lines e
        end
      else []
  end.

(** The text of a token. *)
Definition token_text (lines : list str) (t : tokref) : str :=
  nth (snd t) (tokens (nth (fst t) lines [])) [].
Definition is_staff_type (t : str) : bool := str_eqb t (S_ "**kern") || str_eqb t (S_ "**mens").

(** [spineStartListOfType(['**kern', '**mens'])] (humdrumfilebase.py:1782-1806,
    humdrumfile.py:651), reversed (humdrumfile.py:668). *)
Definition staffStarts (lines : list str) (tr : tracks) : list tokref :=
  rev (flat_map (fun o => match o with
                          | Some t => if is_staff_type (token_text lines t) then [t] else []
                          | None => []
                          end) (tl (trackStarts tr))).

(** [_initializeIgnoreLineVector] (humdrumfile.py:819-831). *)
Fixpoint ignore_from (state : bool) (lines : list str) : list bool :=
  match lines with
  | [] => []
  | l :: ls =>
      state :: ignore_from
        (if str_eqb l (S_ "!!ignore") then true
         else if str_eqb l (S_ "!!Xignore") then false else state) ls
  end.
Definition ignoreLine (lines : list str) : list bool := ignore_from false lines.

(** The measures (first and last line) that are made into music21 measures
    (humdrumfile.py:640-706, 12493-12509, 1023-1037).  [None]: the file does not
    parse.  A file without staves gives an empty score. *)
Definition importedMeasures (lines : list str) : option (list (nat * nat)) :=
  match analyzeSpines lines with
  | None => None
  | Some (_, fin) =>
      match staffStarts lines (s_tracks fin) with
      | [] => Some []
      | t :: _ =>
          Some (filter (fun k => negb (nth (fst k) (ignoreLine lines) false))
                       (measure_loop (length lines) lines (fst t)))
      end
  end.
