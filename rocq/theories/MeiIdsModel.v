(** Model of the elements of an MEI file that name notes by their ids: <slur>, <tie>,
    <beamSpan>, <tupletSpan>, <hairpin>, as they are handled before and while the notes
    are read (mei/meireader.py). *)
From Coq Require Import ZArith.
From Verif Require Import PyStr.

(** [removeOctothorpe] (meishared.py:127-139). *)
Definition removeOctothorpe (s : str) : str :=
  match s with c :: s' => if Ascii.eqb c "#" then s' else s | [] => [] end.

(** [m21Attr]: for the id of a note and the name of an attribute its value. *)
Definition attrs : Type := str -> str -> option str.
Definition noAttrs : attrs := fun _ _ => None.
Definition setAttr (m : attrs) (i a v : str) : attrs :=
  fun j b => if str_eqb j i && str_eqb b a then Some v else m j b.

(** An element with the attributes [startid] and [endid] (empty if absent). *)
Record span := mkSpan { startid : str; endid : str }.

(** * Slurs. *)
(** "Not there: set; there: add with a comma" (meireader.py:961-971). *)
Definition addAttr (m : attrs) (i a v : str) : attrs :=
  match m i a with
  | None => setAttr m i a v
  | Some w => setAttr m i a (w ++ S_ "," ++ v)
  end.
(** [_ppSlurs] (meireader.py:943-971).  The unique id of a slur is modelled by its
    number among the slurs. *)
Fixpoint ppSlurs (k : N) (sl : list span) (m : attrs) : attrs :=
  match sl with
  | [] => m
  | s :: sl' =>
      let i := removeOctothorpe (startid s) in
      let j := removeOctothorpe (endid s) in
      let m1 := match i with [] => m | _ => addAttr m i (S_ "m21SlurStart") (show_N k) end in
      let m2 := match j with [] => m1 | _ => addAttr m1 j (S_ "m21SlurEnd") (show_N k) end in
      ppSlurs (N.succ k) sl' m2
  end.
(** The slurs with their ids and the notes added to them so far;
    [safeAddToSpannerByIdLocal] (meireader.py:2246-2264) adds to the first slur with
    the id.  music21 does not add a note twice to a spanner. *)
Fixpoint addTo (u n : str) (b : list (str * list str)) : list (str * list str) :=
  match b with
  | [] => []
  | (w, ns) :: b' => if str_eqb w u then (w, if existsb (str_eqb n) ns then ns else ns ++ [n]) :: b' else (w, ns) :: addTo u n b'
  end.
(** [addSlurs] for a note with the id [n] (meireader.py:2306-2318). *)
Definition ids_at (m : attrs) (n a : str) : list str :=
  match m n a with Some (c :: s) => split_char "," (c :: s) | _ => [] end.
Definition addSlurs (m : attrs) (b : list (str * list str)) (n : str) : list (str * list str) :=
  fold_left (fun b u => addTo u n b) (ids_at m n (S_ "m21SlurStart") ++ ids_at m n (S_ "m21SlurEnd")) b.
Fixpoint bundle (k : N) (sl : list span) : list (str * list str) :=
  match sl with [] => [] | _ :: sl' => (show_N k, []) :: bundle (N.succ k) sl' end.
(** The notes of each slur, when the notes with the ids [ns] are read in this order.
    Slurs with neither [startid] nor [endid] are not made at all (line 951); here they
    stay without notes. *)
Definition readSlurs (sl : list span) (ns : list str) : list (list str) :=
  map snd (fold_left (addSlurs (ppSlurs 0 sl noAttrs)) ns (bundle 0 sl)).

(** * Ties: [_ppTies] (meireader.py:1002-1024). *)
Definition is_attr (m : attrs) (i a v : str) : bool :=
  match m i a with Some w => str_eqb w v | None => false end.
Definition ppTie (m : attrs) (t : span) : attrs :=
  let i := removeOctothorpe (startid t) in
  let j := removeOctothorpe (endid t) in
  match i, j with
  | _ :: _, _ :: _ =>
      let m1 := if is_attr m i (S_ "tie") (S_ "t") then setAttr m i (S_ "tie") (S_ "ti") else setAttr m i (S_ "tie") (S_ "i") in
      if is_attr m1 j (S_ "tie") (S_ "i") then setAttr m1 j (S_ "tie") (S_ "it") else setAttr m1 j (S_ "tie") (S_ "t")
  | _, _ => m
  end.
Definition ppTies (ts : list span) : attrs := fold_left ppTie ts noAttrs.
(** [_ppConclude] (meireader.py:1934-1944): the attribute of a note that had the value
    [old] before (empty if it had none); [None]: the note is without the attribute. *)
Definition conclude (m : attrs) (i a : str) (old : option str) : option str :=
  match m i a with
  | None => old
  | Some v => Some (match old with Some o => o ++ v | None => v end)
  end.

(** * Beams: [_ppBeams] (meireader.py:1053-1075); [plist] with its ids. *)
Definition ppBeam (m : attrs) (x : span * str) : attrs :=
  let s := fst x in
  match startid s, endid s with
  | [], [] =>
      let m1 := setAttr m (removeOctothorpe (startid s)) (S_ "m21Beam") (S_ "start") in
      let m2 := setAttr m1 (removeOctothorpe (endid s)) (S_ "m21Beam") (S_ "stop") in
      fold_left (fun m i =>
        match m (removeOctothorpe i) (S_ "m21Beam") with
        | None => setAttr m (removeOctothorpe i) (S_ "m21Beam") (S_ "continue")
        | Some _ => m
        end) (split_char " " (snd x)) m2
  | _, _ => m
  end.
Definition ppBeams (xs : list (span * str)) : attrs := fold_left ppBeam xs noAttrs.

(** * Tuplets: [_ppTuplets] (meireader.py:1108-1128), for elements with [plist]; [num]
    and [numbase] (empty if absent).  The other attributes are left out. *)
Record tspan := mkTS { ts_plist : str; ts_num : str; ts_numbase : str }.
Definition ppTuplet (m : attrs) (t : tspan) : attrs :=
  fold_left (fun m i0 =>
    let i := removeOctothorpe i0 in
    match i with
    | [] => m
    | _ =>
        let num := match ts_num t with [] => S_ "3" | _ => ts_num t end in
        let base := match ts_numbase t with [] => S_ "2" | _ => ts_numbase t end in
        setAttr (setAttr m i (S_ "m21TupletNum") num) i (S_ "m21TupletNumbase") base
    end) (split_char " " (ts_plist t)) m.
Definition ppTuplets (ts : list tspan) : attrs := fold_left ppTuplet ts noAttrs.

(** * Hairpins: [_ppHairpins] (meireader.py:1240-1245). *)
Fixpoint ppHairpins (k : N) (hs : list span) (m : attrs) : attrs :=
  match hs with
  | [] => m
  | h :: hs' =>
      let i := removeOctothorpe (startid h) in
      let j := removeOctothorpe (endid h) in
      let m1 := match i with [] => m | _ => setAttr m i (S_ "m21HairpinStart") (show_N k) end in
      let m2 := match j with [] => m1 | _ => setAttr m1 j (S_ "m21HairpinEnd") (show_N k) end in
      ppHairpins (N.succ k) hs' m2
  end.
(** [addHairpins] (meireader.py:2425-2440). *)
Definition opt_ids (m : attrs) (n a : str) : list str :=
  match m n a with Some (c :: s) => [c :: s] | _ => [] end.
Definition addHairpins (m : attrs) (b : list (str * list str)) (n : str) : list (str * list str) :=
  fold_left (fun b u => addTo u n b) (opt_ids m n (S_ "m21HairpinStart") ++ opt_ids m n (S_ "m21HairpinEnd")) b.
Definition readHairpins (hs : list span) (ns : list str) : list (list str) :=
  map snd (fold_left (addHairpins (ppHairpins 0 hs noAttrs)) ns (bundle 0 hs)).
