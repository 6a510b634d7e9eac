(** Chord symbols in MEI: how a chord symbol is printed, how it is written as a <harm>
    element, and how such an element is read.  Texts are lists of code points here, because
    they contain signs for accidentals.  The Harte texts in the attribute type are those of
    HarteModel. *)
From Coq Require Import List Ascii String Arith NArith ZArith Lia Bool.
From Verif Require Import PyStr ClefModel HarteModel.
Import ListNotations.

Definition utext := list N.
Definition U (s : string) : utext := map N_of_ascii (S_ s).
Definition u_of (s : str) : utext := map N_of_ascii s.
Fixpoint u_eqb (a b : utext) : bool :=
  match a, b with
  | [], [] => true
  | x :: a', y :: b' => N.eqb x y && u_eqb a' b'
  | _, _ => false
  end.
Definition u_in (c : N) (l : list N) : bool := existsb (N.eqb c) l.

(** sharedconstants.py:9-11 and 134-143: the signs. *)
Definition sign_flat : N := 9837.            (* musicFlatSign, U+266D *)
Definition sign_sharp : N := 9839.           (* musicSharpSign, U+266F *)
Definition smufl_flat : N := 57952.          (* accidentalFlat, U+E260 *)
Definition smufl_sharp : N := 57954.         (* accidentalSharp, U+E262 *)
Definition smufl_double_sharp : N := 57955.
Definition smufl_double_flat : N := 57956.
Definition smufl_triple_sharp : N := 57957.
Definition smufl_triple_flat : N := 57958.
Definition smufl_natural_flat : N := 57959.
Definition smufl_natural_sharp : N := 57960.
Definition smufl_sharp_sharp : N := 57961.
Definition degree_sign : N := 176.           (* U+00B0 *)

(** [re.sub] of a pattern without special characters, and [str.replace]: every occurrence
    from left to right. *)
Fixpoint u_prefix (p t : utext) : option utext :=
  match p, t with
  | [], _ => Some t
  | x :: p', y :: t' => if N.eqb x y then u_prefix p' t' else None
  | _, _ => None
  end.
Fixpoint u_sub_n (n : nat) (p r t : utext) : utext :=
  match n with
  | O => t
  | S n' =>
      match u_prefix p t with
      | Some t' => r ++ u_sub_n n' p r t'
      | None => match t with [] => [] | c :: t' => c :: u_sub_n n' p r t' end
      end
  end.
Definition u_sub (p r t : utext) : utext := u_sub_n (List.length t) p r t.

(** [str.strip]: python's white space. *)
Definition u_space (c : N) : bool :=
  ((9 <=? c) && (c <=? 13) || (28 <=? c) && (c <=? 32) || (c =? 133) || (c =? 160) || (c =? 5760)
   || (8192 <=? c) && (c <=? 8202) || (c =? 8232) || (c =? 8233) || (c =? 8239) || (c =? 8287) || (c =? 12288))%N.
Fixpoint u_lstrip (t : utext) : utext :=
  match t with [] => [] | c :: t' => if u_space c then u_lstrip t' else t end.
Definition u_strip (t : utext) : utext := rev (u_lstrip (rev (u_lstrip t))).
(** [str.lower], as far as a comparison with plain texts that contain no k or i goes. *)
Definition u_lower (c : N) : N := if ((65 <=? c) && (c <=? 90))%N then (c + 32)%N else c.

(** ** Printing *)

(** m21utilities.py:2936-2951, [m21PitchNameToSMUFLAccidentals]. *)
Definition with_signs (t : utext) : utext := u_sub (U "-") [sign_flat] (u_sub (U "#") [sign_sharp] t).

(** m21utilities.py:2979-3023, [convertChordSymbolFigureToPrintableText]. *)
Definition print_char (c : N) : utext :=
  if N.eqb c 98 then [smufl_flat] else if N.eqb c 35 then [smufl_sharp] else if N.eqb c 32 then [] else [c].
Fixpoint drop_signs (t : utext) : utext :=
  match t with [] => [] | c :: t' => if u_in c [smufl_flat; smufl_sharp] then drop_signs t' else t end.
Fixpoint up_to_slash (t : utext) : utext :=
  match t with [] => [] | c :: t' => if N.eqb c 47 then [] else c :: up_to_slash t' end.
Definition tweaks (t : utext) : utext :=
  let t := u_sub (U "dim") [degree_sign] t in
  if u_in 111 t then
    let t := u_sub (U "o7") (degree_sign :: U "7") t in
    let t := u_sub (U "o9") (degree_sign :: U "9") t in
    let t := u_sub (U "o" ++ smufl_flat :: U "9") (degree_sign :: smufl_flat :: U "9") t in
    u_sub (U "o11") (degree_sign :: U "11") t
  else t.
Definition printable (removeNoteNames : bool) (text : utext) : utext :=
  let text := u_sub (U "-") (U "b") (u_sub (U "subtract") (U "omit") text) in
  let output := flat_map print_char text in
  let output := if removeNoteNames then up_to_slash (drop_signs (tl output)) else output in
  tweaks output.

(** A chord symbol with what is known of its printed form: [chordKindStr] and, if it has
    been read from MEI, the whole text [c21_full_text]. *)
Record harmony := Harm { h_sym : csym; h_kind : utext; h_full : option utext }.
Definition name_signs (p : pname) : utext := with_signs (u_of (pitch_name p)).

Section Write.
(** [findFigure] of music21, of a chord symbol that has been simplified. *)
Context (figure : csym -> utext).
Definition simple (s : csym) : option csym :=
  match s with NoChord => Some NoChord | Sym c => option_map Sym (simplify c) end.

(** m21utilities.py:2957-2976, [convertChordSymbolToText]; None: an exception. *)
Definition chord_text (h : harmony) : option utext :=
  match h_sym h with
  | NoChord => Some (h_kind h)
  | Sym c =>
      match h_full h with
      | Some t => Some t
      | None =>
          match h_kind h with
          | (_ :: _) as k =>
              let root := name_signs (c_root c) in
              let bass := name_signs (c_bass c) in
              Some (root ++ k ++ if u_eqb bass root then [] else U "/" ++ bass)
          | [] => option_map (fun s => printable false (figure s)) (simple (h_sym h))
          end
      end
  end.

(** A <harm> element: whether it contains figured bass; the attributes staff, tstamp and
    type; and its text.  Its style and its sub-elements are not modelled. *)
Record harm_el := HarmEl { e_fb : bool; e_staff : option utext; e_tstamp : option utext; e_type : option str; e_text : utext }.

(** m21objectconvert.py:1889-1913, [emitHarmony], with the attributes that the caller has
    set.  None: an exception. *)
Definition harte_prefix : str := S_ "harte-no-commas:".
Definition music21_prefix : str := S_ "music21-no-spaces:".
Definition emit_harmony (staff : utext) (tstamp : utext) (h : harmony) : option harm_el :=
  match makeHarteFromChordSymbol [] (h_sym h) with
  | None => None
  | Some harte =>
      let type := match harte with
                  | [] => None
                  | _ => Some (harte_prefix ++ map (fun c => if Ascii.eqb c ","%char then "."%char else c) harte)
                  end in
      option_map (fun t => HarmEl false (Some staff) (Some tstamp) type t) (chord_text h)
  end.
End Write.

(** ** Reading *)

(** m21utilities.py:2920-2934, the table [ACCIDENTAL_CHAR_TO_ASCII]. *)
Definition accid_table : list (N * utext) :=
  [(sign_flat, U "b"); (sign_sharp, U "#"); (smufl_flat, U "b"); (smufl_sharp, U "#"); (smufl_double_sharp, U "##");
   (smufl_double_flat, U "bb"); (smufl_triple_sharp, U "###"); (smufl_triple_flat, U "bbb"); (smufl_natural_flat, U "b");
   (smufl_natural_sharp, U "#"); (smufl_sharp_sharp, U "##")].
Fixpoint accid_ascii (c : N) (l : list (N * utext)) : option utext :=
  match l with [] => None | (x, a) :: l' => if N.eqb c x then Some a else accid_ascii c l' end.

(** m21utilities.py:3025-3072, [convertPrintableTextToChordSymbolFigure].  The inner loop,
    lines 3048-3050, tests a character that it does not change; [fuel] is the number of
    times it is gone through at most, and None: it has not ended by then. *)
Fixpoint root_loop (fuel : nat) (ch : N) (i : nat) (output : utext) : option (nat * utext) :=
  match fuel with
  | O => None
  | S n => match accid_ascii ch accid_table with
           | Some a => root_loop n ch (S i) (output ++ a)
           | None => Some (i, output)
           end
  end.
(** The rest of the outer loop, lines 3057-3070. *)
Fixpoint rest_loop (useHyphen : bool) (t : utext) : utext :=
  match t with
  | [] => []
  | ch :: t' =>
      let hy := if N.eqb ch 47 then false else useHyphen in
      (match accid_ascii ch accid_table with
       | Some a => if hy && existsb (u_eqb a) [U "b"; U "bb"; U "bbb"] then map (fun _ => 45%N) a else a
       | None => [ch]
       end) ++ rest_loop hy t'
  end.
Definition spaced (t : utext) : utext :=
  let t := u_sub (U "add") (U " add ") t in
  let t := u_sub (U "omit") (U " omit ") t in
  let t := u_sub (U "subtract") (U " omit ") t in
  u_sub (U "alter") (U " alter ") t.
Definition figure_of_text (fuel : nat) (t : utext) : option utext :=
  match spaced t with
  | [] => Some []
  | ch :: _ => option_map (fun '(i, out) => out ++ rest_loop true (skipn i (spaced t))) (root_loop fuel ch 1 [ch])
  end.

(** meireader.py:8081-8106, [getLeadingAccidental], and 8127-8137: the printed label of
    the kind, taken from the text. *)
Definition leading : list N :=
  [98%N; 35%N; sign_flat; sign_sharp; smufl_flat; smufl_sharp; smufl_double_sharp; smufl_double_flat; smufl_triple_sharp;
   smufl_triple_flat; smufl_sharp_sharp].
Fixpoint drop_leading (t : utext) : utext :=
  match t with [] => [] | c :: t' => if u_in c leading then drop_leading t' else t end.
Definition kind_label (t : utext) : utext := up_to_slash (drop_leading (tl t)).

(** meireader.py:8172: the texts that mean no chord. *)
Definition no_chord_texts : list utext :=
  [U "n.c."; U "(n.c.)"; U "nc"; U "(nc)"; U "no chord"; U "(no chord)"].

(** What the reader makes of an element: nothing; a chord symbol with its staff and its
    time stamp; or it does not come to an end. *)
Inductive outcome := Skipped | Running | Read (staff tstamp : utext) (h : harmony).

Section Read.
(** music21's tables, as in HarteModel; [html.unescape]; and music21's [ChordSymbol] of a
    figure, with the number of its pitches (None: an exception).  [topPartN]: the staff
    taken when the element names none. *)
Context (types : list (str * str)) (set_order : list str -> list str) (unescape : utext -> utext)
        (of_figure : utext -> option (csym * nat)) (topPartN : utext).

(** [NoChord] of music21: the label is the text, or N.C. if there is none. *)
Definition no_chord (t : utext) : harmony := Harm NoChord (match t with [] => U "N.C." | _ => t end) None.

(** meireader.py:8193-8196 and 8204-8208, and m21utilities.py:3094-3105: a figure gives a
    chord symbol unless music21 makes nothing or just one pitch of it. *)
Definition contains (p t : utext) : bool := existsb (fun i => match u_prefix p (skipn i t) with Some _ => true | None => false end) (seq 0 (S (List.length t))).
Definition by_figure (text fig : utext) : option csym :=
  match of_figure fig with
  | None => None
  | Some (s, n) => if (n =? 0) || ((n =? 1) && negb (contains (U "pedal") text)) then None else Some s
  end.

(** meireader.py:8189-8212. *)
Definition by_text (fuel : nat) (text : utext) : option (option csym) :=
  match figure_of_text fuel text with
  | None => None
  | Some fig =>
      Some (match by_figure text fig with
            | Some s => Some s
            | None => by_figure text (u_sub [degree_sign] (U "dim") (u_sub (U "maj6") (U "6") fig))
            end)
  end.

(** meireader.py:8139-8154: the regular form hiding in the attribute type. *)
Inductive reg := NoReg | Harte (s : str) | Music21 (t : utext).
Definition reg_of (type : str) : reg :=
  if starts_with harte_prefix type then
    Harte (map (fun c => if Ascii.eqb c "."%char then ","%char else c) (skipn (List.length harte_prefix) type))
  else if starts_with music21_prefix type then
    Music21 (u_sub (U "alter") (U " alter ") (u_sub (U "subtract") (U " subtract ") (u_sub (U "add") (U " add ")
      (u_of (skipn (List.length music21_prefix) type)))))
  else NoReg.
(** meireader.py:8178-8186; the exceptions are caught. *)
Definition by_reg (r : reg) : option csym :=
  match r with
  | NoReg | Harte [] | Music21 [] => None
  | Harte s => match makeChordSymbolFromHarte types set_order s with Some (Some c) => Some c | _ => None end
  | Music21 t => by_figure t t
  end.

(** meireader.py:8073-8219, [harmFromElement]. *)
Definition harm_of (fuel : nat) (e : harm_el) : outcome :=
  if e_fb e then Skipped
  else
    let staff := match e_staff e with Some ((_ :: _) as s) => s | _ => topPartN end in
    match e_tstamp e with
    | None => Skipped
    | Some ts =>
        let text := u_strip (unescape (e_text e)) in
        let r := reg_of (match e_type e with Some s => s | None => [] end) in
        if (match r with Music21 t => u_eqb t (U "N.C") | Harte s => str_eqb s (S_ "N") | NoReg => false end)
           || existsb (u_eqb (map u_lower text)) no_chord_texts
        then Read staff ts (no_chord text)
        else
          match by_reg r with
          | Some s => Read staff ts (Harm s (kind_label text) (Some text))
          | None =>
              match by_text fuel text with
              | None => Running
              | Some None => Skipped
              | Some (Some s) => Read staff ts (Harm s (kind_label text) (Some text))
              end
          end
    end.
End Read.
