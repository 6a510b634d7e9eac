(** Trills, mordents, turns and fermatas in MEI files: how they are written for a
    note (converter21/mei/m21objectconvert.py, meilayer.py) and how they are read
    again (converter21/mei/meireader.py).

    Modelled: the elements written for the expressions of the notes of a staff and
    for the wavy lines of its trills; what the reader stashes away for the notes
    named in these elements, and what the notes get from it; expressions that
    stand at a time stamp.  Simplified: notes, chords and rests are known by their
    ids, which are never empty; of a style only what is written is there.  Not
    modelled: wavy lines that start or end at a spanner anchor, arpeggios (they
    share the loop over the expressions, but no attributes), the neighbour notes
    that music21 works out from note, key and accidental. *)
From Coq Require Import List ZArith QArith Ascii String Bool.
From Verif Require Import PyStr ClefModel MeiIdsModel.
Import ListNotations.
Local Close Scope Q_scope.
Local Open Scope bool_scope.
Local Open Scope list_scope.

(** ** Expressions *)

(** An accidental: its music21 name and whether it is displayed. *)
Record accid := Accid { a_name : str; a_shown : bool }.

(** What an expression looks like: its [placement] ([None]: it has no such
    attribute), and from its style the vertical alignment, the sign of the absolute
    height, whether it is hidden, and its colour (empty for none). *)
Record look := Look { k_place : option (option str); k_align : str; k_absY : option Z; k_hide : bool; k_color : str }.

Inductive delay := NoDelay | DefaultDelay | Timed (q : Q).
Inductive fshape := Normal | Angled | SquareShape | OtherShape.

(** [up] is the [direction] of a trill or mordent, [None] for the empty one.  In
    music21 the direction of [Trill] is up, of [InvertedTrill] down; of [Mordent]
    down, of [InvertedMordent] up; of [GeneralMordent] empty. *)
Inductive mexpr :=
| MTrill (up : option bool) (a : option accid) (k : look)
| MMordent (up : option bool) (a : option accid) (k : look)
| MTurn (inverted : bool) (upper lower : option accid) (d : delay) (k : look)
| MFermata (inverted : bool) (s : fshape) (k : look)
| MOther.

(** A note, chord or rest with its id, and a [TrillExtension] with the ids of the
    notes in it. *)
Record mnote := MNote { n_id : str; n_exprs : list mexpr }.
Record ext := Ext { x_elems : list str; x_look : look }.

(** An element of the file: tag and attributes. *)
Record elt := Elt { e_tag : str; e_attrs : list (str * str) }.
Definition get (e : elt) (a : string) (dflt : str) : str :=
  match assoc_str (S_ a) (e_attrs e) with Some v => v | None => dflt end.

(** ** Writing *)

(** m21objectconvert.py:766-800, [m21AccidToMeiAccid]; a name that music21 does not
    know, or MEI, gives the empty text. *)
Definition accidToMei (name : str) : str :=
  match assoc_str name
    [(S_ "natural", S_ "n"); (S_ "sharp", S_ "s"); (S_ "double-sharp", S_ "ss"); (S_ "triple-sharp", S_ "ts");
     (S_ "flat", S_ "f"); (S_ "double-flat", S_ "ff"); (S_ "triple-flat", S_ "tf"); (S_ "half-sharp", S_ "sd");
     (S_ "one-and-a-half-sharp", S_ "su"); (S_ "half-flat", S_ "fu"); (S_ "one-and-a-half-flat", S_ "fd")] with
  | Some v => v
  | None => []
  end.

Definition one_of (s : str) (l : list str) : bool := existsb (str_eqb s) l.

(** m21objectconvert.py:158-196, [m21PlacementToMei], for expressions: their styles
    have no placement. *)
Definition placementToMei (k : look) : str :=
  match k_place k with
  | None => []
  | Some p =>
      let p := match p with
               | Some p => p
               | None => match k_absY k with
                         | Some y => if (0 <? y)%Z then S_ "above" else if (y <? 0)%Z then S_ "below" else []
                         | None => []
                         end
               end in
      if str_eqb p (S_ "below") && str_eqb (k_align k) (S_ "middle") then S_ "between"
      else if one_of p [S_ "above"; S_ "below"] then p else []
  end.

Definition attr_of (a : string) (v : str) : list (str * str) := match v with [] => [] | _ => [(S_ a, v)] end.

(** m21objectconvert.py:109-156, [_addStylisticAttributes], for expressions. *)
Definition stylistic (k : look) : list (str * str) :=
  attr_of "place" (placementToMei k)
  ++ (if k_hide k then [(S_ "visible", S_ "false")] else []) ++ attr_of "color" (k_color k).

(** m21objectconvert.py:996-1048, [_fillInStandardPostStavesAttributes], for a note
    as first, and a note or nothing as last element. *)
Definition post_staves (staff first : str) (last : option str) : list (str * str) :=
  (S_ "staff", staff) :: (S_ "startid", "#"%char :: first)
  :: match last with
     | Some l => if str_eqb l first then [] else [(S_ "endid", "#"%char :: l)]
     | None => []
     end.

(** m21objectconvert.py:1440-1446, 1542-1547: the accidental of a trill or mordent;
    1496-1501: one of those of a turn. *)
Definition accid_attr (a : string) (x : option accid) : list (str * str) :=
  match x with
  | Some x => if a_shown x then [(S_ a, accidToMei (a_name x))] else []
  | None => []
  end.
Definition side_attr (up : option bool) (x : option accid) : list (str * str) :=
  match up with Some true => accid_attr "accidupper" x | _ => accid_attr "accidlower" x end.
(** m21objectconvert.py:1450-1453, 1549-1552. *)
Definition form_attr (up : option bool) : list (str * str) :=
  match up with
  | Some true => [(S_ "form", S_ "upper")]
  | Some false => [(S_ "form", S_ "lower")]
  | None => []
  end.

(** m21objectconvert.py:1440-1453: the part of [trillToMei] that is the same with
    and without a wavy line. *)
Definition trill_attrs (up : option bool) (a : option accid) (k : look) : list (str * str) :=
  side_attr up a ++ stylistic k ++ form_attr up.

(** m21objectconvert.py:1365-1473, [trillToMei], with a tree builder; [last] is the
    last element of the wavy line that was found. *)
Definition trillToMei (staff id : str) (last : option str) up a k : elt :=
  Elt (S_ "trill") (post_staves staff id last ++ trill_attrs up a k).

(** m21objectconvert.py:1474-1517, [turnToMei]. *)
Definition turnToMei (staff id : str) (inverted : bool) (upper lower : option accid) (d : delay) (k : look) : elt :=
  Elt (S_ "turn") (post_staves staff id None
    ++ accid_attr "accidupper" upper ++ accid_attr "accidlower" lower
    ++ [(S_ "form", if inverted then S_ "lower" else S_ "upper")]
    ++ match d with NoDelay => [] | _ => [(S_ "delayed", S_ "true")] end
    ++ stylistic k).

(** m21objectconvert.py:1518-1556, [mordentToMei]. *)
Definition mordentToMei (staff id : str) (up : option bool) (a : option accid) (k : look) : elt :=
  Elt (S_ "mordent") (post_staves staff id None ++ side_attr up a ++ form_attr up ++ stylistic k).

(** m21objectconvert.py:1580-1592: what [fermataToMei] adds to id, staff and start. *)
Definition fermata_attrs (inverted : bool) (s : fshape) (k : look) : list (str * str) :=
  (if inverted then [(S_ "form", S_ "inv")] else [])
  ++ match s with
     | SquareShape => [(S_ "shape", S_ "square")]
     | Angled => [(S_ "shape", S_ "angular")]
     | _ => []
     end
  ++ stylistic k.
Definition fermataToMei (staff id : str) (inverted : bool) (s : fshape) (k : look) : elt :=
  Elt (S_ "fermata") (post_staves staff id None ++ fermata_attrs inverted s k).

(** python's dict update with the attributes of the wavy line's style. *)
Definition upd (l : list (str * str)) (x : str * str) : list (str * str) :=
  filter (fun y => negb (str_eqb (fst y) (fst x))) l ++ [x].

Definition last_id (x : ext) : str := last (x_elems x) [].
Definition is_first (x : ext) (id : str) : bool := match x_elems x with i :: _ => str_eqb i id | [] => false end.
Definition mem_nat (k : nat) (l : list nat) : bool := existsb (Nat.eqb k) l.

(** The first trill of a note that has not been written yet, with its place in the
    list (m21objectconvert.py:1224-1229); [k] counts the expressions. *)
Fixpoint first_trill (done : list nat) (k : nat) (es : list mexpr) : option (nat * option bool * option accid * look) :=
  match es with
  | [] => None
  | MTrill up a l :: es' => if mem_nat k done then first_trill done (S k) es' else Some (k, up, a, l)
  | _ :: es' => first_trill done (S k) es'
  end.

(** What has been written: elements, wavy lines and trills (of the note at hand). *)
Record wstate := W { w_elts : list elt; w_exts : list nat; w_trills : list nat }.

(** meilayer.py:641-662 with m21objectconvert.py:1201-1272: the wavy lines that
    start at a note, each with the first trill that is still to be written. *)
Fixpoint write_exts (staff : str) (n : mnote) (k : nat) (xs : list ext) (w : wstate) : wstate :=
  match xs with
  | [] => w
  | x :: xs' =>
      let w :=
        if is_first x (n_id n) && negb (mem_nat k (w_exts w)) then
          match first_trill (w_trills w) 0 (n_exprs n) with
          | Some (i, up, a, l) =>
              W (w_elts w ++ [Elt (S_ "trill")
                   (fold_left upd (stylistic (x_look x))
                      (post_staves staff (n_id n) (Some (last_id x)) ++ trill_attrs up a l))])
                (k :: w_exts w) (i :: w_trills w)
          | None => w
          end
        else w in
      write_exts staff n (S k) xs' w
  end.

(** m21objectconvert.py:1388-1396: the first wavy line that the note is in - at any
    place in it. *)
Fixpoint find_ext (id : str) (k : nat) (xs : list ext) : option (nat * ext) :=
  match xs with
  | [] => None
  | x :: xs' => if one_of id (x_elems x) then Some (k, x) else find_ext id (S k) xs'
  end.

(** meilayer.py:733-788: the expressions of a note; [i] counts them. *)
Fixpoint write_exprs (staff : str) (xs : list ext) (id : str) (i : nat) (es : list mexpr) (w : wstate) : wstate :=
  match es with
  | [] => w
  | e :: es' =>
      let w :=
        match e with
        | MTrill up a l =>
            if mem_nat i (w_trills w) then w
            else match find_ext id 0 xs with
                 | Some (k, x) => W (w_elts w ++ [trillToMei staff id (Some (last_id x)) up a l]) (k :: w_exts w) (i :: w_trills w)
                 | None => W (w_elts w ++ [trillToMei staff id None up a l]) (w_exts w) (i :: w_trills w)
                 end
        | MTurn inv u lo d l => W (w_elts w ++ [turnToMei staff id inv u lo d l]) (w_exts w) (w_trills w)
        | MMordent up a l => W (w_elts w ++ [mordentToMei staff id up a l]) (w_exts w) (w_trills w)
        | MFermata inv s l => W (w_elts w ++ [fermataToMei staff id inv s l]) (w_exts w) (w_trills w)
        | MOther => w
        end in
      write_exprs staff xs id (S i) es' w
  end.

Definition write_note (staff : str) (xs : list ext) (w : wstate) (n : mnote) : wstate :=
  let w := write_exts staff n 0 xs (W (w_elts w) (w_exts w) []) in
  write_exprs staff xs (n_id n) 0 (n_exprs n) w.

(** The elements of a staff, in the order of its notes. *)
Definition write_staff (staff : str) (xs : list ext) (ns : list mnote) : list elt :=
  w_elts (fold_left (write_note staff xs) ns (W [] [] [])).

(** ** Reading *)

(** meireader.py:557-563 with 2535-2541, [_m21AccidentalNameFromAccid], followed by
    music21's [Accidental(..).name] (pitch.py, [accidentalNameToModifier]). *)
Definition accidFromMei (v : str) : str :=
  match assoc_str v
    [(S_ "s", S_ "#"); (S_ "f", S_ "-"); (S_ "ss", S_ "##"); (S_ "x", S_ "##"); (S_ "ff", S_ "--"); (S_ "xs", S_ "###");
     (S_ "ts", S_ "###"); (S_ "tf", S_ "---"); (S_ "n", S_ "n"); (S_ "nf", S_ "-"); (S_ "ns", S_ "#");
     (S_ "su", S_ "#~"); (S_ "sd", S_ "~"); (S_ "fu", S_ "`"); (S_ "fd", S_ "-`"); (S_ "nu", S_ "~"); (S_ "nd", S_ "`");
     (S_ "1qf", S_ "`"); (S_ "3qf", S_ "-`"); (S_ "1qs", S_ "~"); (S_ "3qs", S_ "#~")] with
  | Some v => v
  | None => []
  end.
Definition m21Name (modifier : str) : str :=
  match assoc_str modifier
    [(S_ "n", S_ "natural"); (S_ "#", S_ "sharp"); (S_ "##", S_ "double-sharp"); (S_ "###", S_ "triple-sharp");
     (S_ "-", S_ "flat"); (S_ "--", S_ "double-flat"); (S_ "---", S_ "triple-flat");
     (S_ "~", S_ "half-sharp"); (S_ "#~", S_ "one-and-a-half-sharp"); (S_ "`", S_ "half-flat"); (S_ "-`", S_ "one-and-a-half-flat")] with
  | Some n => n
  | None => []
  end.
Definition readAccid (v : str) : option accid :=
  match accidFromMei v with [] => None | m => Some (Accid (m21Name m) true) end.

Definition setIf (m : attrs) (i : str) (a : string) (v : str) : attrs :=
  match v with [] => m | _ => setAttr m i (S_ a) v end.
Definition start_of (e : elt) : str := removeOctothorpe (get e "startid" []).
Definition end_of (e : elt) : str := removeOctothorpe (get e "endid" []).
Definition is_tag (t : string) (e : elt) : bool := str_eqb (e_tag e) (S_ t).

(** meireader.py:1278-1297, [_ppFermatas]. *)
Definition ppFermata (m : attrs) (e : elt) : attrs :=
  let i := start_of e in
  match i with
  | [] => m
  | _ => setIf (setIf (setAttr m i (S_ "fermata") (get e "place" (S_ "above"))) i "fermata_form" (get e "form" []))
           i "fermata_shape" (get e "shape" [])
  end.
(** meireader.py:1320-1344: the trill part of [_ppTrills]. *)
Definition ppTrill (m : attrs) (e : elt) : attrs :=
  let i := start_of e in
  match i with
  | [] => m
  | _ => setIf (setIf (setAttr m i (S_ "m21Trill") (get e "place" (S_ "place_unspecified")))
           i "m21TrillAccidUpper" (get e "accidupper" [])) i "m21TrillAccidLower" (get e "accidlower" [])
  end.
(** meireader.py:1346-1375: its wavy line part, for elements without time stamps;
    [k] counts the wavy lines, in place of the random id. *)
Definition has_line (e : elt) : bool := match end_of e with [] => false | _ => true end.
Fixpoint ppLines (k : N) (es : list elt) (m : attrs) : attrs :=
  match es with
  | [] => m
  | e :: es' =>
      if has_line e then
        let i := start_of e in
        let m1 := match i with [] => m | _ => setAttr m i (S_ "m21TrillExtensionStart") (show_N k) end in
        ppLines (N.succ k) es' (setAttr m1 (end_of e) (S_ "m21TrillExtensionEnd") (show_N k))
      else ppLines k es' m
  end.
(** meireader.py:1405-1432, [_ppMordents]. *)
Definition ppMordent (m : attrs) (e : elt) : attrs :=
  let i := start_of e in
  match i with
  | [] => m
  | _ => setIf (setIf (setIf (setAttr m i (S_ "m21Mordent") (get e "place" (S_ "place_unspecified")))
           i "m21MordentForm" (get e "form" [])) i "m21MordentAccidUpper" (get e "accidupper" []))
           i "m21MordentAccidLower" (get e "accidlower" [])
  end.
(** meireader.py:1457-1484, [_ppTurns]. *)
Definition ppTurn (m : attrs) (e : elt) : attrs :=
  let i := start_of e in
  match i with
  | [] => m
  | _ => setIf (setIf (setIf (setIf (setIf (setAttr m i (S_ "m21Turn") (get e "place" (S_ "place_unspecified")))
           i "m21TurnForm" (get e "form" [])) i "m21TurnType" (get e "type" []))
           i "m21TurnAccidUpper" (get e "accidupper" [])) i "m21TurnAccidLower" (get e "accidlower" []))
           i "m21TurnDelayed" (get e "delayed" [])
  end.
(** meireader.py:463-471: the passes over the elements of the file. *)
Definition preprocess (es : list elt) : attrs :=
  let m := fold_left ppFermata (filter (is_tag "fermata") es) noAttrs in
  let m := fold_left ppTrill (filter (is_tag "trill") es) m in
  let m := ppLines 0 (filter (is_tag "trill") es) m in
  let m := fold_left ppMordent (filter (is_tag "mordent") es) m in
  fold_left ppTurn (filter (is_tag "turn") es) m.

(** The attributes of a note after [_ppConclude] (MeiIdsModel.v, [conclude]); [own]
    are those in the file. *)
Definition nattrs := str -> option str.
Definition after (m : attrs) (own : nattrs) (i : str) : nattrs := fun a => conclude m i a (own a).
Definition val (n : nattrs) (a : string) : str := match n (S_ a) with Some v => v | None => [] end.

(** What an expression gets from a place attribute (meireader.py:2594-2597 and the
    like). *)
Definition place_look (place : str) : look :=
  Look (Some (match place with
              | [] => None
              | _ => if str_eqb place (S_ "place_unspecified") then None else Some place
              end)) [] None false [].

(** meireader.py:4551-4571 and 8387-8408. *)
Definition makeFermata (place form shape : str) : mexpr :=
  let t := if str_eqb place (S_ "above") then false else str_eqb place (S_ "below") in
  let t := if str_eqb form (S_ "norm") then false else if str_eqb form (S_ "inv") then true else t in
  MFermata t
    (if str_eqb shape (S_ "angular") then Angled else if str_eqb shape (S_ "square") then SquareShape else Normal)
    (Look (if one_of place [S_ "above"; S_ "below"] then Some (Some place) else None) [] None false []).
(** meireader.py:4538-4571, [fermataFromNoteChordOrRestElement]. *)
Definition readFermata (n : nattrs) : option mexpr :=
  match n (S_ "fermata") with
  | None => None
  | Some place => Some (makeFermata place (val n "fermata_form") (val n "fermata_shape"))
  end.

Definition firstAccid (u l : str) : option accid :=
  match u with [] => match l with [] => None | _ => readAccid l end | _ => readAccid u end.

(** meireader.py:2562-2600: the trill part of [addTrill]. *)
Definition addTrill (n : nattrs) : option mexpr :=
  match val n "m21Trill" with
  | [] => None
  | place => Some (MTrill (Some true) (firstAccid (val n "m21TrillAccidUpper") (val n "m21TrillAccidLower")) (place_look place))
  end.

(** meireader.py:2602-2664, [addMordent].  The outer [None] is the exception for a
    form that is neither upper nor lower: no mordent has been made. *)
Definition addMordent (n : nattrs) : option (option mexpr) :=
  match val n "m21Mordent" with
  | [] => Some None
  | place =>
      let u := val n "m21MordentAccidUpper" in
      let l := val n "m21MordentAccidLower" in
      let form := val n "m21MordentForm" in
      let form := match u, form with _ :: _, [] => S_ "upper" | _, _ => form end in
      let form := match l, form with _ :: _, [] => S_ "lower" | _, _ => form end in
      let form := match form with [] => S_ "lower" | _ => form end in
      if str_eqb form (S_ "upper") then Some (Some (MMordent (Some true) (firstAccid u l) (place_look place)))
      else if str_eqb form (S_ "lower") then Some (Some (MMordent (Some false) (firstAccid u l) (place_look place)))
      else None
  end.

(** meireader.py:2666-2742, [addTurn]. *)
Definition optAccid (v : str) : option accid := match v with [] => None | _ => readAccid v end.
Definition addTurn (n : nattrs) : option mexpr :=
  match val n "m21Turn" with
  | [] => None
  | place =>
      let form := val n "m21TurnForm" in
      let form := match form with [] => if str_eqb (val n "m21TurnType") (S_ "slashed") then S_ "lower" else S_ "upper" | _ => form end in
      Some (MTurn (negb (str_eqb form (S_ "upper"))) (optAccid (val n "m21TurnAccidUpper")) (optAccid (val n "m21TurnAccidLower"))
              (if str_eqb (val n "m21TurnDelayed") (S_ "true") then DefaultDelay else NoDelay) (place_look place))
  end.

Definition opt_list {A} (o : option A) : list A := match o with Some x => [x] | None => [] end.

(** meireader.py:4910-4919, 5517-5527: the expressions of a note or chord. *)
Definition read_note (n : nattrs) : option (list mexpr) :=
  match addMordent n with
  | None => None
  | Some mo => Some (opt_list (readFermata n) ++ opt_list (addTrill n) ++ opt_list mo ++ opt_list (addTurn n))
  end.
(** meireader.py:5117-5121: those of a rest. *)
Definition read_rest (n : nattrs) : list mexpr := opt_list (readFermata n).
Definition no_attrs : nattrs := fun _ => None.
Definition reread (es : list elt) (i : str) : option (list mexpr) := read_note (after (preprocess es) no_attrs i).

(** meireader.py:2549-2560: the wavy lines of [addTrill], as the notes with the ids
    [ns] are read; every line with the notes that were put into it. *)
Definition addLines (m : attrs) (b : list (str * list str)) (n : str) : list (str * list str) :=
  fold_left (fun b u => addTo u n b) (opt_ids m n (S_ "m21TrillExtensionStart") ++ opt_ids m n (S_ "m21TrillExtensionEnd")) b.
Fixpoint line_bundle (k : N) (es : list elt) : list (str * list str) :=
  match es with
  | [] => []
  | e :: es' => if has_line e then (show_N k, []) :: line_bundle (N.succ k) es' else line_bundle k es'
  end.
Definition read_lines (es : list elt) (ns : list str) : list (list str) :=
  let ts := filter (is_tag "trill") es in
  map snd (fold_left (addLines (preprocess es)) ns (line_bundle 0 ts)).

(** ** Expressions at a time stamp *)

(** meireader.py:7440-7514, [mordentFromElement]: the mordent of an element without
    start id. *)
Definition mordentFromElement (e : elt) : mexpr :=
  let u := get e "accidupper" [] in
  let l := get e "accidlower" [] in
  let form := match get e "form" [] with
              | [] => match u with
                      | [] => match l with [] => S_ "upper" | _ => S_ "lower" end
                      | _ => S_ "upper"
                      end
              | f => f
              end in
  MMordent (Some (str_eqb form (S_ "upper"))) (firstAccid u l) (place_look (get e "place" (S_ "place_unspecified"))).

(** meireader.py:7516-7606, [turnFromElement]. *)
Definition turnFromElement (e : elt) : mexpr :=
  let form := match get e "form" [] with
              | [] => if str_eqb (get e "type" []) (S_ "slashed") then S_ "lower" else S_ "upper"
              | f => f
              end in
  MTurn (negb (str_eqb form (S_ "upper"))) (optAccid (get e "accidupper" [])) (optAccid (get e "accidlower" []))
    (if str_eqb (get e "delayed" (S_ "false")) (S_ "true") then DefaultDelay else NoDelay)
    (place_look (get e "place" (S_ "place_unspecified"))).

(** meireader.py:7359-7386: the trill of [trillFromElement]. *)
Definition trillFromElement (e : elt) : mexpr :=
  MTrill (Some true) (firstAccid (get e "accidupper" []) (get e "accidlower" [])) (place_look (get e "place" (S_ "place_unspecified"))).

(** meireader.py:8352-8408, [fermataFromElement]. *)
Definition fermataFromElement (e : elt) : mexpr :=
  makeFermata (get e "place" (S_ "above")) (get e "form" []) (get e "shape" []).

(** The objects of a measure in their order: barlines, with the fermata on them, and
    voices, of objects with offset and expressions, and whether they are rests. *)
Record vobj := VObj { v_off : Q; v_rest : bool; v_exprs : list mexpr }.
Inductive mobj := Bar (pause : option mexpr) | Voice (objs : list vobj).

Definition on_rest (e : mexpr) : bool := match e with MFermata _ _ _ => true | _ => false end.

(** meireader.py:6972-7006, for an expression that is no delayed turn: the first
    object of the voice at the offset that can have it gets it. *)
Fixpoint put_voice (e : mexpr) (off : Q) (os : list vobj) : option (list vobj) :=
  match os with
  | [] => None
  | o :: os' =>
      if (on_rest e || negb (v_rest o)) && Qeq_bool (v_off o) off then Some (VObj (v_off o) (v_rest o) (v_exprs o ++ [e]) :: os')
      else match put_voice e off os' with Some r => Some (o :: r) | None => None end
  end.

(** meireader.py:6939-7062, [_addTimestampedExpressions], for one staff.  [None]: no
    place was found.  The question in lines 6931-6935 whether the expression is a
    delayed turn is always answered no: music21's turns have a [delay], and no
    attribute [delayed]; so lines 7008-7021 and 7026-7056 do nothing. *)
Fixpoint put_measure (e : mexpr) (off : Q) (ms : list mobj) : option (list mobj) :=
  match ms with
  | [] => None
  | Bar p :: ms' =>
      match e with
      | MFermata _ _ _ => Some (Bar (match p with None => Some e | Some p => Some p end) :: ms')
      | _ => match put_measure e off ms' with Some r => Some (Bar p :: r) | None => None end
      end
  | Voice os :: ms' =>
      match put_voice e off os with
      | Some os => Some (Voice os :: ms')
      | None => match put_measure e off ms' with Some r => Some (Voice os :: r) | None => None end
      end
  end.
