(** Model of tuplets in MEI: the elements <tuplet> and <tupletSpan> as they are read
    (mei/meireader.py), and their attributes as they are written
    (mei/m21objectconvert.py).

    A duration is what the note shows (type and dots, as a length in quarters) with its
    tuplets; a note that sounds differently ([dur.ges], unlinked in music21) has its own
    sounding length as well.  Not modelled: the notes inside chords (the chord carries
    the tuplets), [dur.ppq], the types of the tuplets' own notes ([durationActual] and
    [durationNormal] are the type of the note, so that they do not change its length),
    notes whose elements carry the m21-attributes in the file already. *)
From Coq Require Import ZArith QArith.
From Verif Require Import PyStr DateModel MeiIdsModel.
Local Close Scope Q_scope.

(** What is in a layer: notes, rests and chords ([Dur]), the same as grace notes
    ([Grace]), anything else ([Other]). *)
Inductive kind := Dur | Grace | Other.
(** An element: its id, kind, written length, own sounding length, and its attribute
    [tuplet] (empty if absent). *)
Record note := mkNote { n_id : str; n_kind : kind; n_vis : Q; n_ges : option Q; n_tup : str }.
(** The attributes of a tuplet: number of notes, number of notes they replace, bracket
    visible, bracket place, number visible, number place, number format. *)
Record tattrs := mkTA { a_num : option str; a_base : option str; a_bv : option str; a_bp : option str;
                        a_nv : option str; a_np : option str; a_nf : option str }.
Inductive el :=
| Leaf (x : note)
| Beam (es : list el)
| Tup (a : tattrs) (es : list el).

(** A music21 Tuplet. *)
Inductive ttype := Start | Stop | StartStop.
Inductive bracket := BNone | BTrue | BFalse | BSlur.
Record tup := mkTup { t_num : Z; t_base : Z; t_type : option ttype; t_place : option str;
                      t_bracket : bracket; t_actual : option str; t_normal : option str }.
(** A note with its tuplets and the attributes kept for the search of tuplets
    ([m21TupletSearch] and those of the tuplet). *)
Record obj := mkObj { o_note : note; o_vis : Q; o_ges : option Q; o_tups : list tup; o_stash : option (str * tattrs) }.

(** * Spans, before the notes are read: [_ppTuplets] (meireader.py:1105-1192); absent
    attributes are empty except for [plist]. *)
Record sp := mkSp { sp_start : option str; sp_end : option str; sp_plist : option str;
                    sp_num : str; sp_base : str; sp_bv : str; sp_bp : str; sp_nv : str; sp_np : str; sp_nf : str }.
Definition default (d s : str) : str := match s with [] => d | _ => s end.
Definition setIf (m : attrs) (i a v : str) : attrs := match v with [] => m | _ => setAttr m i a v end.
(** The attributes of the tuplet at one note (meireader.py:1119-1143, 1152-1176,
    1178-1192). *)
Definition setSpan (m : attrs) (i : str) (s : sp) : attrs :=
  let m := setAttr m i (S_ "m21TupletNum") (default (S_ "3") (sp_num s)) in
  let m := setAttr m i (S_ "m21TupletNumbase") (default (S_ "2") (sp_base s)) in
  let m := setIf m i (S_ "m21TupletBracketVisible") (sp_bv s) in
  let m := setIf m i (S_ "m21TupletBracketPlace") (sp_bp s) in
  let m := setIf m i (S_ "m21TupletNumVisible") (sp_nv s) in
  let m := setIf m i (S_ "m21TupletNumPlace") (sp_np s) in
  setIf m i (S_ "m21TupletNumFormat") (sp_nf s).
Definition ppSpan (m : attrs) (s : sp) : attrs :=
  match sp_plist s with
  | Some p =>
      fold_left (fun m i0 => match removeOctothorpe i0 with [] => m | i => setSpan m i s end) (split_char " " p) m
  | None =>
      match sp_start s, sp_end s with
      | Some b, Some e =>
          let m := setSpan (setAttr m (removeOctothorpe b) (S_ "m21TupletSearch") (S_ "start")) (removeOctothorpe b) s in
          setSpan (setAttr m (removeOctothorpe e) (S_ "m21TupletSearch") (S_ "end")) (removeOctothorpe e) s
      | _, _ => m
      end
  end.
Definition ppSpans (ss : list sp) : attrs := fold_left ppSpan ss noAttrs.

(** The attributes of a note's element, after those of the spans were added to it
    ([_ppConclude], meireader.py:1934-1944). *)
Definition attrs_at (m : attrs) (i : str) : tattrs :=
  mkTA (m i (S_ "m21TupletNum")) (m i (S_ "m21TupletNumbase")) (m i (S_ "m21TupletBracketVisible"))
       (m i (S_ "m21TupletBracketPlace")) (m i (S_ "m21TupletNumVisible")) (m i (S_ "m21TupletNumPlace"))
       (m i (S_ "m21TupletNumFormat")).
Definition search_at (m : attrs) (i : str) : option str := m i (S_ "m21TupletSearch").

(** * [scaleToTuplet] (meireader.py:2940-3084). *)
Definition is_v (v : str) (o : option str) : bool := match o with Some s => str_eqb s v | None => false end.
Definition absent (o : option str) : bool := match o with None => true | _ => false end.
(** The placement (meireader.py:3040-3049). *)
Definition place_of (a : tattrs) : option str :=
  let p := if absent (a_bv a) || is_v (S_ "true") (a_bv a) then a_bp a else None in
  match p with
  | Some _ => p
  | None => if absent (a_nv a) || is_v (S_ "true") (a_nv a) then a_np a else None
  end.
(** The bracket (meireader.py:3051-3059); a Tuplet of music21 has one from the start. *)
Definition bracket_of (a : tattrs) : bracket :=
  if absent (a_bv a) then BNone
  else if is_v (S_ "true") (a_bv a) then BTrue
  else if is_v (S_ "false") (a_bv a) then BFalse else BTrue.
(** The numbers (meireader.py:3061-3072); a Tuplet of music21 shows the first one from
    the start. *)
Definition shows_of (a : tattrs) : option str * option str :=
  if is_v (S_ "false") (a_nv a) then (None, None)
  else if absent (a_nv a) || is_v (S_ "true") (a_nv a) then
    if absent (a_nf a) || is_v (S_ "count") (a_nf a) then (Some (S_ "number"), None)
    else if is_v (S_ "ratio") (a_nf a) then (Some (S_ "number"), Some (S_ "number"))
    else (Some (S_ "number"), None)
  else (Some (S_ "number"), None).
(** [tupletMultiplier]. *)
Definition mult (t : tup) : Q := (inject_Z (t_base t) / inject_Z (t_num t))%Q.
(** A note gets one more tuplet (meireader.py:3013-3084).  [None]: [int] fails.  A note
    with its own sounding length gets a new duration and so loses the tuplets it has. *)
Definition append_tup (a : tattrs) (ty : option ttype) (o : obj) : option obj :=
  match a_num a, a_base a with
  | Some (c1 :: s1), Some (c2 :: s2) =>
      match py_int (c1 :: s1), py_int (c2 :: s2) with
      | Some n, Some b =>
          let t := mkTup n b ty (place_of a) (bracket_of a) (fst (shows_of a)) (snd (shows_of a)) in
          match o_ges o with
          | None => Some (mkObj (o_note o) (o_vis o) None (o_tups o ++ [t]) (o_stash o))
          | Some g => Some (mkObj (o_note o) (o_vis o) (Some (g * mult t)%Q) [t] (o_stash o))
          end
      | _, _ => None
      end
  | _, _ => Some o
  end.
(** With a list of objects (the members of a <tuplet>): position [i] of [k]. *)
Fixpoint scale_list (a : tattrs) (i k : nat) (os : list obj) : option (list obj) :=
  match os with
  | [] => Some []
  | o :: os' =>
      let ty := if Nat.eqb i 0 then Some Start else if Nat.eqb i (k - 1) then Some Stop else None in
      match (match n_kind (o_note o) with Dur => append_tup a ty o | _ => Some o end), scale_list a (S i) k os' with
      | Some o', Some r => Some (o' :: r)
      | _, _ => None
      end
  end.

(** * A note, rest or chord ([noteFromElement], meireader.py:4760-4769, 4999-5035;
    likewise 5085-5208, 5261-5314, 5415-5640).  [n] is [inTupletCount]. *)
Definition starts_with_c (c : ascii) (s : str) : bool := match s with x :: _ => Ascii.eqb x c | [] => false end.
Definition bare (w : str) (x : note) : obj :=
  mkObj x (n_vis x) (n_ges x) [] (Some (w, mkTA (Some (S_ "3")) (Some (S_ "2")) None None None None None)).
Definition read_leaf (m : attrs) (n : Z) (x : note) : option (Z * obj) :=
  let o := mkObj x (n_vis x) (n_ges x) [] None in
  match n_kind x with
  | Other => Some (n, o)
  | _ =>
      let a := attrs_at m (n_id x) in
      let s := search_at m (n_id x) in
      let n1 := if is_v (S_ "start") s then (n + 1)%Z else if starts_with_c "i" (n_tup x) then (n + 1)%Z else n in
      let o1 :=
        match a_num a with
        | Some _ =>
            match n_kind x with
            | Dur =>
                match s with
                | Some w => Some (mkObj x (n_vis x) (n_ges x) [] (Some (w, a)))
                | None => append_tup a (if starts_with_c "i" (n_tup x) then Some Start
                                        else if starts_with_c "t" (n_tup x) then Some Stop else None) o
                end
            | _ => Some o
            end
        | None =>
            if (n1 =? 0)%Z then
              match s with
              | Some (_ :: _) => Some o
              | _ => if starts_with_c "t" (n_tup x) then Some (bare (S_ "end") x)
                     else if starts_with_c "i" (n_tup x) then Some (bare (S_ "start") x) else Some o
              end
            else Some o
        end in
      let n2 := if is_v (S_ "end") s then (n1 - 1)%Z else if starts_with_c "t" (n_tup x) then (n1 - 1)%Z else n1 in
      match o1 with Some o' => Some (n2, o') | None => None end
  end.

(** * [tupletFromElement] (meireader.py:6215-6277). *)
Definition is_dur (o : obj) : bool := match n_kind (o_note o) with Dur => true | _ => false end.
Fixpoint first_dur (i : nat) (os : list obj) : option nat :=
  match os with [] => None | o :: os' => if is_dur o then Some i else first_dur (S i) os' end.
Fixpoint last_dur (i : nat) (os : list obj) (r : option nat) : option nat :=
  match os with [] => r | o :: os' => last_dur (S i) os' (if is_dur o then Some i else r) end.
(** [tuplets[-1].type = ty]; [None]: there is no tuplet. *)
Definition set_last (ty : ttype) (o : obj) : option obj :=
  match rev (o_tups o) with
  | [] => None
  | t :: r => Some (mkObj (o_note o) (o_vis o) (o_ges o)
      (rev (mkTup (t_num t) (t_base t) (Some ty) (t_place t) (t_bracket t) (t_actual t) (t_normal t) :: r)) (o_stash o))
  end.
Fixpoint at_nth (f : obj -> option obj) (i : nat) (os : list obj) : option (list obj) :=
  match os, i with
  | [], _ => None
  | o :: os', O => match f o with Some o' => Some (o' :: os') | None => None end
  | o :: os', S i' => match at_nth f i' os' with Some r => Some (o :: r) | None => None end
  end.
Definition tuplet_of (a : tattrs) (os : list obj) : option (list obj) :=
  let a := mkTA (match a_num a with None => Some (S_ "3") | x => x end)
                (match a_base a with None => Some (S_ "2") | x => x end)
                (a_bv a) (a_bp a) (a_nv a) (a_np a) (a_nf a) in
  match scale_list a 0 (length os) os with
  | None => None
  | Some os1 =>
      match first_dur 0 os1 with
      | None => Some []
      | Some f =>
          match last_dur (S f) (skipn (S f) os1) None with
          | None => at_nth (set_last StartStop) f os1
          | Some l => match at_nth (set_last Start) f os1 with Some os2 => at_nth (set_last Stop) l os2 | None => None end
          end
      end
  end.
(** The elements of a layer; a <beam> passes on what is in it (meireader.py:5981-5990). *)
Fixpoint read_el (m : attrs) (e : el) (n : Z) {struct e} : option (Z * list obj) :=
  let reads := fix reads (es : list el) (n : Z) : option (Z * list obj) :=
    match es with
    | [] => Some (n, [])
    | e :: es' =>
        match read_el m e n with
        | None => None
        | Some (n1, os) => match reads es' n1 with Some (n2, os') => Some (n2, os ++ os') | None => None end
        end
    end in
  match e with
  | Leaf x => match read_leaf m n x with Some (n', o) => Some (n', [o]) | None => None end
  | Beam es => reads es n
  | Tup a es =>
      match reads es (n + 1)%Z with
      | Some (n1, os) => match tuplet_of a os with Some os' => Some ((n1 - 1)%Z, os') | None => None end
      | None => None
      end
  end.
Fixpoint reads (m : attrs) (es : list el) (n : Z) : option (Z * list obj) :=
  match es with
  | [] => Some (n, [])
  | e :: es' =>
      match read_el m e n with
      | None => None
      | Some (n1, os) => match reads m es' n1 with Some (n2, os') => Some (n2, os ++ os') | None => None end
      end
  end.

(** * [_guessTuplets] (meireader.py:3086-3197): what is known of the tuplet we are in. *)
Definition over (new old : option str) : option str := match new with Some _ => new | None => old end.
(** The attributes of the new tuplet; those it has not keep their values
    (meireader.py:3137-3178). *)
Definition take (new old : tattrs) : tattrs :=
  mkTA (a_num new) (a_base new) (over (a_bv new) (a_bv old)) (over (a_bp new) (a_bp old))
       (over (a_nv new) (a_nv old)) (over (a_np new) (a_np old)) (over (a_nf new) (a_nf old)).
(** [tuplets[0].type = ty]. *)
Definition set_first (ty : ttype) (o : obj) : option obj :=
  match o_tups o with
  | [] => None
  | t :: r => Some (mkObj (o_note o) (o_vis o) (o_ges o)
      (mkTup (t_num t) (t_base t) (Some ty) (t_place t) (t_bracket t) (t_actual t) (t_normal t) :: r) (o_stash o))
  end.
Definition no_stash (o : obj) : obj := mkObj (o_note o) (o_vis o) (o_ges o) (o_tups o) None.
(** [inside]: whether a tuplet has begun; [cur]: its attributes. *)
Fixpoint guess (inside : bool) (cur : tattrs) (os : list obj) : option (list obj) :=
  match os with
  | [] => Some []
  | o :: os' =>
      match n_kind (o_note o) with
      | Other => match guess inside cur os' with Some r => Some (o :: r) | None => None end
      | k =>
          let st := match o_stash o with Some (w, _) => str_eqb w (S_ "start") | None => false end in
          let cur1 := match o_stash o with Some (_, a) => if st then take a cur else cur | None => cur end in
          let inside1 := inside || st in
          if inside1 then
            match (match k with Dur => append_tup cur1 None o | _ => Some o end) with
            | None => None
            | Some o1 =>
                let r := match o_stash o with
                         | None => Some (o1, true)
                         | Some (w, _) =>
                             if str_eqb w (S_ "start") then match set_first Start (no_stash o1) with Some o2 => Some (o2, true) | None => None end
                             else if str_eqb w (S_ "end") then match set_first Stop (no_stash o1) with Some o2 => Some (o2, false) | None => None end
                             else Some (no_stash o1, true)
                         end in
                match r with
                | None => None
                | Some (o2, i2) => match guess i2 cur1 os' with Some r' => Some (o2 :: r') | None => None end
                end
            end
          else match guess inside1 cur1 os' with Some r => Some (o :: r) | None => None end
      end
  end.
Definition noTA : tattrs := mkTA None None None None None None None.
(** A layer ([layerFromElement], meireader.py:6388-6398); [n] is [inTupletCount] before. *)
Definition read_layer (m : attrs) (n : Z) (es : list el) : option (list obj) :=
  match reads m es n with Some (_, os) => guess false noTA os | None => None end.

(** * Writing: [fillInTupletAttributes] (m21objectconvert.py:1316-1357). *)
Definition bracket_attr (b : bracket) : option str :=
  match b with BFalse => Some (S_ "false") | BTrue | BSlur => Some (S_ "true") | BNone => None end.
Definition is_number (o : option str) : bool := is_v (S_ "number") o.
Definition fill (t : tup) : tattrs :=
  let vis := negb (absent (t_actual t)) || negb (absent (t_normal t)) in
  mkTA (Some (show_Z (t_num t))) (Some (show_Z (t_base t)))
       (bracket_attr (t_bracket t))
       (match t_bracket t with BFalse => None | _ => t_place t end)
       (if vis then None else Some (S_ "false"))
       (if vis then t_place t else None)
       (if vis && is_number (t_actual t) then
          if is_number (t_normal t) then Some (S_ "ratio")
          else if absent (t_normal t) then Some (S_ "count") else None
        else None).
(** A <tupletSpan> (m21objectconvert.py:1185-1194): the ids of the notes in [plist], and
    of the first and last one. *)
Definition orEmpty (o : option str) : str := match o with Some s => s | None => [] end.
Definition written_span (t : tup) (ids : list str) : sp :=
  let a := fill t in
  mkSp (match ids with [] => None | i :: _ => Some ("#"%char :: i) end) (Some ("#"%char :: last ids []))
       (Some (join (S_ " ") ids))
       (orEmpty (a_num a)) (orEmpty (a_base a)) (orEmpty (a_bv a)) (orEmpty (a_bp a)) (orEmpty (a_nv a))
       (orEmpty (a_np a)) (orEmpty (a_nf a)).
(** The attribute [tuplet] of its notes ([_addTupletAttribute], m21objectconvert.py:88-107). *)
Definition written_tup (ids : list str) (i : str) : str :=
  if str_eqb i (hd [] ids) then S_ "i1" else if str_eqb i (last ids []) then S_ "t1" else S_ "m1".
