(** Model of clefs, key signatures and time signatures in MEI: written
    (mei/m21objectconvert.py) and read (mei/meireader.py). *)
From Coq Require Import ZArith.
From Verif Require Import PyStr NamesModel MeiPitchModel.

(** Clefs.  Sign and line as music21 has them ([None]: no line). *)
Record mclef := mkClef { k_sign : str; k_line : option N; k_oct : Z; k_hidden : bool }.
(** The attributes of <clef>; [None]: not there. *)
Record cattrs := mkCA { ca_shape : str; ca_line : option str; ca_dis : option str; ca_place : option str; ca_hidden : bool }.

(** [m21ClefToMei] with its tables (m21objectconvert.py:504-560), for a clef that
    was not handled in the definition of the staff; [None]: nothing is written. *)
Definition writeClef (c : mclef) : option cattrs :=
  if str_eqb (k_sign c) (S_ "none") then None
  else
    let shape := if str_eqb (k_sign c) (S_ "percussion") then S_ "perc" else k_sign c in
    let '(dis, place) :=
      match k_oct c with
      | 1 => (Some (S_ "8"), Some (S_ "above")) | -1 => (Some (S_ "8"), Some (S_ "below"))
      | 2 => (Some (S_ "15"), Some (S_ "above")) | -2 => (Some (S_ "15"), Some (S_ "below"))
      | 3 => (Some (S_ "22"), Some (S_ "above")) | -3 => (Some (S_ "22"), Some (S_ "below"))
      | _ => (None, None)
      end%Z in
    Some (mkCA shape (option_map show_N (k_line c)) dis place (k_hidden c)).

(** [_getOctaveShift] (meireader.py:818-840). *)
Definition getOctaveShift (dis place : option str) : Z :=
  let n := match dis with
           | None => 0
           | Some d => if str_eqb d (S_ "8") then 1 else if str_eqb d (S_ "15") then 2 else if str_eqb d (S_ "22") then 3 else 0
           end%Z in
  match place with Some p => if str_eqb p (S_ "below") then (-1 * n)%Z else n | None => n end.
(** [_clefFromElement] (meireader.py:5646-5726), without [sameas].
    [clefFromString] is music21's; percussion and tablature clefs are as music21
    makes them. *)
Definition readClef (clefFromString : str -> Z -> mclef) (a : cattrs) : mclef :=
  let c :=
    if str_eqb (ca_shape a) (S_ "perc") then mkClef (S_ "percussion") None 0 false
    else if str_eqb (ca_shape a) (S_ "TAB") then mkClef (S_ "TAB") (Some 5%N) 0 false
    else
      let line := match ca_line a with Some l => l | None => [] end in
      if str_eqb (ca_shape a) (S_ "GG") then clefFromString (S_ "G" ++ line) (-1)%Z
      else clefFromString (ca_shape a ++ line) (getOctaveShift (ca_dis a) (ca_place a)) in
  mkClef (k_sign c) (k_line c) (k_oct c) (ca_hidden a).

(** Key signatures: the number of sharps ([None] for a signature that is not one
    of the usual ones), and for a key its tonic and mode. *)
Record keysig := mkKS { ks_sharps : option Z; ks_key : option (ascii * option accid * str); ks_hidden : bool }.
Record kattrs := mkKA { ka_pname : option str; ka_mode : option str; ka_accid : option str; ka_sig : option str; ka_hidden : bool }.

(** [_M21_SHARPS_TO_MEI_SIG] (m21objectconvert.py:562-588). *)
Definition meiSig (sharps : option Z) : str :=
  match sharps with
  | Some z => if (z =? 0)%Z then S_ "0"
              else if (Z.abs z <=? 12)%Z then show_Z (Z.abs z) ++ (if (0 <? z)%Z then S_ "s" else S_ "f")
              else S_ "0"
  | None => S_ "0"
  end.
(** [m21KeySigToMei] (m21objectconvert.py:590-626). *)
Definition writeKey (k : keysig) : kattrs :=
  let '(p, m, a) :=
    match ks_key k with
    | Some (st, ac, mode) =>
        let accid := match ac with Some x => meiAccid x | None => [] end in
        match mode with
        | [] => (None, None, None)
        | _ => (Some [to_lower st], Some mode, match accid with [] => None | _ => Some accid end)
        end
    | None => (None, None, None)
    end in
  mkKA p m a (Some (meiSig (ks_sharps k))) (ks_hidden k).

(** [_sharpsFromAttr] (meireader.py:841-870). *)
Definition digit_val (c : ascii) : Z := Z.of_N (parse_N [c]).
Definition sharpsFromAttr (s : str) : Z :=
  match s with
  | [] => 0%Z
  | c :: _ => if Ascii.eqb c "0" then 0%Z
              else if Ascii.eqb (last s "?"%char) "s" then digit_val c else (-1 * digit_val c)%Z
  end.
(** [_keySigFromAttrs] (meireader.py:2062-2136).  [keySharps] is music21's number of
    sharps of a key, [asKey] the tonic it finds for a number of sharps and a mode. *)
Definition readKey (keySharps : ascii -> option accid -> str -> Z) (asKey : Z -> str -> ascii * option accid)
    (a : kattrs) : option keysig :=
  let theKey :=
    match ka_pname a, ka_mode a with
    | Some p, Some m =>
        let st := match p with c :: _ => to_upper c | [] => "C"%char end in
        Some (st, opt_bind (ka_accid a) accidAttr, m)
    | _, _ => None
    end in
  let theSig :=
    match ka_sig a with
    | Some s =>
        let n := sharpsFromAttr s in
        Some (n, match ka_mode a with
                 | Some (_ :: _ as m) => let '(st, ac) := asKey n m in Some (st, ac, m)
                 | _ => None
                 end)
    | None => None
    end in
  match theKey, theSig with
  | Some (st, ac, m), Some (n, k) =>
      if (keySharps st ac m =? n)%Z then Some (mkKS (Some (keySharps st ac m)) (Some (st, ac, m)) (ka_hidden a))
      else Some (mkKS (Some n) k (ka_hidden a))
  | Some (st, ac, m), None => Some (mkKS (Some (keySharps st ac m)) (Some (st, ac, m)) (ka_hidden a))
  | None, Some (n, k) => Some (mkKS (Some n) k (ka_hidden a))
  | None, None => None
  end.

(** Time signatures. *)
Record timesig := mkTS { ts_num : N; ts_den : N; ts_sym : str; ts_hidden : bool }.
Record tattrs := mkTA { ta_count : option str; ta_sym : option str; ta_unit : option str; ta_hidden : bool }.
(** [m21TimeSigToMei] (m21objectconvert.py:628-656). *)
Definition writeTime (t : timesig) : tattrs :=
  mkTA (Some (show_N (ts_num t))) (match ts_sym t with [] => None | s => Some s end) (Some (show_N (ts_den t))) (ts_hidden t).
(** [_timeSigFromAttrs] (meireader.py:2022-2060). *)
Definition none_or (x : option str) (v : str) : bool := match x with None => true | Some s => str_eqb s v end.
Definition readTime (a : tattrs) : option timesig :=
  let sym := match ta_sym a with Some s => s | None => [] end in
  if str_eqb sym (S_ "cut") && none_or (ta_count a) (S_ "2") && none_or (ta_unit a) (S_ "2")
  then Some (mkTS 2 2 (S_ "cut") false)
  else if str_eqb sym (S_ "common") && none_or (ta_count a) (S_ "4") && none_or (ta_unit a) (S_ "4")
  then Some (mkTS 4 4 (S_ "common") false)
  else match nonempty (ta_count a), nonempty (ta_unit a) with
       | Some c, Some u => Some (mkTS (parse_N c) (parse_N u) [] false)
       | _, _ => None
       end.
