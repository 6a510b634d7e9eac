(** A score's metadata in a Humdrum file: how reference records are written from it
    (humdrumwriter.py, m21convert.py) and read into it (humdrumfile.py). *)
From Coq Require Import List Arith NArith Bool Ascii String.
From Verif Require Import PyStr DateModel LayoutModel ClefModel TokenModel NamesModel.
Import ListNotations.
Local Open Scope list_scope.

(** music21's Text: the text, its language, whether it is a translation (None counts as
    False).  The encoding scheme is left out: only the conversion to dates uses it. *)
Record mtext := mkT { t_data : str; t_lang : option str; t_trans : bool }.
(** A value: a Text, a Contributor with a role and names, anything else by what
    [m21MetadataValueToString] makes of it. *)
Inductive mval := MText (t : mtext) | MContrib (role : str) (names : list mtext) | MOther (s : str).
(** Metadata as [all(returnPrimitives=True, returnSorted=False)] lists it. *)
Definition metadata := list (str * mval).

(** humdrumReferenceKeyToM21MetadataPropertyUniqueName (m21utilities.py:2483-2591). *)
Definition ref_table : list (str * str) :=
  [(S_ "COM", S_ "composer"); (S_ "COA", S_ "attributedComposer"); (S_ "COS", S_ "suspectedComposer");
   (S_ "COL", S_ "composerAlias"); (S_ "COC", S_ "composerCorporate"); (S_ "CDT", S_ "");
   (S_ "CBL", S_ ""); (S_ "CDL", S_ ""); (S_ "CNT", S_ "");
   (S_ "LYR", S_ "lyricist"); (S_ "LIB", S_ "librettist"); (S_ "LAR", S_ "arranger");
   (S_ "LOR", S_ "orchestrator"); (S_ "TXO", S_ "textOriginalLanguage"); (S_ "TXL", S_ "textLanguage");
   (S_ "TRN", S_ "translator"); (S_ "RTL", S_ ""); (S_ "RMM", S_ "");
   (S_ "RC#", S_ ""); (S_ "RRD", S_ "dateIssued"); (S_ "RLC", S_ "");
   (S_ "RNP", S_ "producer"); (S_ "RDT", S_ ""); (S_ "RT#", S_ "");
   (S_ "MGN", S_ ""); (S_ "MPN", S_ ""); (S_ "MPS", S_ "");
   (S_ "MRD", S_ ""); (S_ "MLC", S_ ""); (S_ "MCN", S_ "conductor");
   (S_ "MPD", S_ ""); (S_ "MDT", S_ ""); (S_ "OTL", S_ "title");
   (S_ "OTP", S_ "popularTitle"); (S_ "OTA", S_ "alternativeTitle"); (S_ "OPR", S_ "parentTitle");
   (S_ "OAC", S_ "actNumber"); (S_ "OSC", S_ "sceneNumber"); (S_ "OMV", S_ "movementNumber");
   (S_ "OMD", S_ "movementName"); (S_ "OPS", S_ "opusNumber"); (S_ "ONM", S_ "number");
   (S_ "OVM", S_ "volumeNumber"); (S_ "ODE", S_ "dedicatedTo"); (S_ "OCO", S_ "commissionedBy");
   (S_ "OCL", S_ "transcriber"); (S_ "ONB", S_ ""); (S_ "ODT", S_ "dateCreated");
   (S_ "OCY", S_ "countryOfComposition"); (S_ "OPC", S_ "localeOfComposition"); (S_ "GTL", S_ "groupTitle");
   (S_ "GAW", S_ "associatedWork"); (S_ "GCO", S_ "collectionDesignation"); (S_ "PUB", S_ "");
   (S_ "PED", S_ ""); (S_ "PPR", S_ "firstPublisher"); (S_ "PDT", S_ "dateFirstPublished");
   (S_ "PTL", S_ "publicationTitle"); (S_ "PPP", S_ "placeFirstPublished"); (S_ "PC#", S_ "publishersCatalogNumber");
   (S_ "SCT", S_ "scholarlyCatalogAbbreviation"); (S_ "SCA", S_ "scholarlyCatalogName"); (S_ "SMS", S_ "manuscriptSourceName");
   (S_ "SML", S_ "manuscriptLocation"); (S_ "SMA", S_ "manuscriptAccessAcknowledgement"); (S_ "YEP", S_ "electronicPublisher");
   (S_ "YEC", S_ "copyright"); (S_ "YER", S_ "electronicReleaseDate"); (S_ "YEM", S_ "");
   (S_ "YEN", S_ ""); (S_ "YOR", S_ ""); (S_ "YOO", S_ "originalDocumentOwner");
   (S_ "YOY", S_ ""); (S_ "YOE", S_ "originalEditor"); (S_ "EED", S_ "electronicEditor");
   (S_ "ENC", S_ "electronicEncoder"); (S_ "END", S_ ""); (S_ "EMD", S_ "");
   (S_ "EEV", S_ ""); (S_ "EFL", S_ ""); (S_ "EST", S_ "");
   (S_ "VTS", S_ ""); (S_ "ACO", S_ ""); (S_ "AFR", S_ "");
   (S_ "AGN", S_ ""); (S_ "AST", S_ ""); (S_ "AMD", S_ "");
   (S_ "AMT", S_ ""); (S_ "AIN", S_ ""); (S_ "ARE", S_ "");
   (S_ "ARL", S_ ""); (S_ "HAO", S_ ""); (S_ "HTX", S_ "");
   (S_ "RLN", S_ ""); (S_ "RNB", S_ ""); (S_ "RWB", S_ "")].

(** m21MetadataPropertyUniqueNameToHumdrumReferenceKey (m21utilities.py:2593-2596); no name
    stands in two rows. *)
Definition name_key (name : str) : option str :=
  assoc_str name (map (fun r => (snd r, fst r))
                      (filter (fun r => match snd r with [] => false | _ => true end) ref_table)).
(** validHumdrumReferenceKeys (m21utilities.py:2598-2599). *)
Definition valid_key (k : str) : bool := existsb (fun r => str_eqb k (fst r)) ref_table.
(** customHumdrumReferenceKeysThatAreDates (m21utilities.py:2601-2609). *)
Definition date_key (k : str) : bool :=
  existsb (str_eqb k) [S_ "CDT"; S_ "RDT"; S_ "MRD"; S_ "MPD"; S_ "MDT"; S_ "YOY"; S_ "END"].
(** humdrumReferenceKeyToM21OtherContributorRole (m21utilities.py:2611-2615). *)
Definition key_role (k : str) : option str :=
  assoc_str k [(S_ "MPN", S_ "performer"); (S_ "MPS", S_ "suspected performer");
               (S_ "PED", S_ "publication editor")].
(** m21OtherContributorRoleToHumdrumReferenceKey (m21utilities.py:2617-2626). *)
Definition role_row (r : str) : option str :=
  assoc_str r [(S_ "performer", S_ "MPN"); (S_ "suspected performer", S_ "MPS");
               (S_ "suspectedPerformer", S_ "MPS"); (S_ "source editor", S_ "PED");
               (S_ "sourceEditor", S_ "PED"); (S_ "publication editor", S_ "PED");
               (S_ "publicationEditor", S_ "PED"); (S_ "poet", S_ "LYR")].
(** contributorRoleToHumdrumReferenceKey (m21utilities.py:2654-2691). *)
Definition orelse {A} (a b : option A) : option A := match a with Some _ => a | None => b end.
Definition role_key (r : str) : option str :=
  let alt := if char_in " "%char r then spaceDelimitedToCamelCase r else camelCaseToSpaceDelimited r in
  orelse (name_key r) (orelse (role_row r) (orelse (name_key alt) (role_row alt))).

(** ** Writing *)

(** m21MetadataValueToString (m21utilities.py:2728-2750) with stringFromM21Contributor
    (2721-2726).  A raw Contributor is printed by [str] in the code; here as any other. *)
Definition value_string (v : mval) : str :=
  replace [newline] (S_ "\n")
    match v with
    | MText t => t_data t
    | MContrib _ [] => []
    | MContrib _ (t :: _) => t_data t
    | MOther s => s
    end.

(** m21convert.py:3397-3402, 3417-3422, 3469-3481: the language after the key. *)
Definition has_lang (t : mtext) : bool := match t_lang t with Some (_ :: _) => true | _ => false end.
Definition lang_suffix (t : mtext) : str :=
  match t_lang t with
  | Some ((_ :: _) as l) => (if t_trans t then S_ "@" else S_ "@@") ++ map to_upper l
  | _ => []
  end.

(** m21UniqueNameToHumdrumKeyWithoutIndexOrLanguage (m21convert.py:3369-3380). *)
Definition hd_key (n : str) : option str :=
  match name_key n with
  | Some k => Some k
  | None => if starts_with (S_ "humdrumraw:") n then Some (skipn 11 n) else None
  end.
(** m21MetadataItemToHumdrumKeyWithoutIndex (m21convert.py:3382-3403); None: a TypeError. *)
Definition count_key (n : str) (v : mval) : option (option str) :=
  match v with
  | MText t =>
      if has_lang t then
        match hd_key n with Some k => Some (Some (k ++ lang_suffix t)) | None => None end
      else Some (hd_key n)
  | _ => Some (hd_key n)
  end.

(** m21convert.py:3424-3427, 3486-3489. *)
Definition ref_line (k s : str) : str :=
  S_ "!!!" ++ k ++ match s with [] => S_ ":" | _ => S_ ": " ++ s end.
Definition with_index (k : str) (idx : N) : str := if (0 <? idx)%N then k ++ show_N idx else k.

(** humdrumMetadataItemToHumdrumReferenceLineStr (m21convert.py:3404-3429). *)
Definition hum_line (idx : N) (k : str) (v : mval) : str :=
  ref_line (with_index k idx ++ match v with MText t => lang_suffix t | _ => [] end) (value_string v).

(** m21MetadataItemToHumdrumReferenceLineStr (m21convert.py:3431-3491); None: an IndexError,
    from a contributor without names. *)
Definition item_line (idx : N) (n : str) (v : mval) : option str :=
  if starts_with (S_ "raw:") n then Some (ref_line (skipn 4 n) (value_string v))
  else if starts_with (S_ "humdrumraw:") n then Some (ref_line (skipn 11 n) (value_string v))
  else
    let '(base, plain) := if starts_with (S_ "humdrum:") n then (Some (skipn 8 n), skipn 8 n)
                          else (hd_key n, n) in
    let k := match base with Some k => with_index k idx | None => plain end in
    match v with
    | MContrib _ [] => None
    | MContrib _ (t :: _) | MText t => Some (ref_line (k ++ lang_suffix t) (value_string v))
    | MOther _ => Some (ref_line k (value_string v))
    end.

(** hdKeyWithoutIndexToCurrentIndex (humdrumwriter.py:634): how often a key was used. *)
Definition counts := list (str * N).
Definition count_of (c : counts) (k : str) : N := match assoc_str k c with Some i => i | None => 0%N end.

(** humdrumwriter.py:641-655 and alike; 820-834. *)
Definition numbered (c : counts) (n : str) (v : mval) : option (counts * option str) :=
  match count_key n v with
  | None => None
  | Some (Some ((_ :: _) as k)) =>
      let idx := count_of c k in
      option_map (fun l => ((k, (idx + 1)%N) :: c, Some l)) (item_line idx n v)
  | Some _ => option_map (fun l => (c, Some l)) (item_line 0 n v)
  end.

(** humdrumwriter.py:601-632: these names come first, in this order; 737-752: all movement
    names have the key without a number; 786-838: the others.  [is_fileinfo]: music21's
    namespace name of the name starts with m21FileInfo:. *)
Definition header_names : list str :=
  [S_ "composer"; S_ "title"; S_ "alternativeTitle"; S_ "popularTitle"; S_ "parentTitle";
   S_ "groupTitle"; S_ "movementName"; S_ "movementNumber"; S_ "copyright"].
Definition is_header (n : str) : bool := existsb (str_eqb n) header_names.
Definition write_item (is_fileinfo : str -> bool) (c : counts) (it : str * mval)
  : option (counts * option str) :=
  let (n, v) := it in
  if str_eqb n (S_ "movementName") then
    match count_key n v with None => None | Some _ => option_map (fun l => (c, Some l)) (item_line 0 n v) end
  else if is_header n then numbered c n v
  else if starts_with (S_ "humdrumraw:") n || starts_with (S_ "humdrum:") n || starts_with (S_ "raw:") n
  then option_map (fun l => (c, Some l)) (item_line 0 n v)
  else if is_fileinfo n then Some (c, None)
  else
    match (if str_eqb n (S_ "otherContributor")
           then match v with MContrib r _ => role_key r | _ => None end else None) with
    | Some k => Some ((k, (count_of c k + 1)%N) :: c, Some (hum_line (count_of c k) k v))
    | None => numbered c n v
    end.
Fixpoint write_items (is_fileinfo : str -> bool) (c : counts) (l : metadata) : option (list (bool * str)) :=
  match l with
  | [] => Some []
  | it :: l' =>
      match write_item is_fileinfo c it with
      | None => None
      | Some (c', line) =>
          option_map (fun rest => match line with
                                  | Some s => (is_header (fst it), s) :: rest
                                  | None => rest
                                  end) (write_items is_fileinfo c' l')
      end
  end.
Definition write_order (md : metadata) : metadata :=
  flat_map (fun h => filter (fun it => str_eqb (fst it) h) md) header_names
  ++ filter (fun it => negb (is_header (fst it))) md.
(** _addHeaderRecords (humdrumwriter.py:563-840) without the system decoration.  The lines
    before the music are marked with true, those after it with false. *)
Definition write_metadata (is_fileinfo : str -> bool) (md : metadata) : option (list (bool * str)) :=
  write_items is_fileinfo [] (write_order md).

(** ** Reading *)

Section Read.
(** [html.unescape]; what getMetronomeMarkInfo leaves of the text of an OMD record
    (humdrumfile.py:934-944; None: no movement name); the date texts of
    humdrumfile.py:10898-10923 (None: an exception); music21's value for a Text under a
    name, with dates made of texts in m21convert.py:3353-3367. *)
Context (unesc : str -> str) (omd : str -> option str) (fix_date : str -> option str)
        (conv : str -> mtext -> mval).

(** humdrumfile.py:905-946. *)
Definition biblio_item (before_music : bool) (line : str) : list (str * str) :=
  if negb (isGlobalReference line) then []
  else
    let key := referenceKey line in
    if str_eqb key (S_ "system-decoration") || starts_with (S_ "RDF**") key then []
    else
      match replace (S_ "\n") [newline] (unesc (referenceValue line)) with
      | [] => []
      | value =>
          if str_eqb key (S_ "OMD") then
            if before_music then match omd value with Some ((_ :: _) as s) => [(key, s)] | _ => [] end else []
          else [(key, value)]
      end.
Definition values_for (k : str) (b : list (str * str)) : list str :=
  map snd (filter (fun it => str_eqb (fst it) k) b).
(** list.remove. *)
Fixpoint remove1 (k v : str) (b : list (str * str)) : list (str * str) :=
  match b with
  | [] => []
  | (k', v') :: b' => if str_eqb k k' && str_eqb v v' then b' else (k', v') :: remove1 k v b'
  end.
(** humdrumfile.py:894-960. *)
Definition biblio (lines : list (bool * str)) : list (str * str) :=
  let b := flat_map (fun l => biblio_item (fst l) (snd l)) lines in
  match values_for (S_ "OTL") b, values_for (S_ "OMD") b with
  | [t], [m] => if str_eqb t m then remove1 (S_ "OTL") t b else b
  | _, _ => b
  end.

(** _parseReferenceItem (humdrumfile.py:10768-10805): the key, the language and whether two
    at signs stand before it; None: another form.  The classes of the expression are disjoint,
    so each part is the longest run. *)
Definition is_letter (c : ascii) : bool := is_lower c || is_upper c.
Definition key_char (c : ascii) : bool :=
  negb (is_digit c || Ascii.eqb c "@"%char || Ascii.eqb c " "%char || Ascii.eqb c tab).
Definition parse_key (k : str) : option (str * str * bool) :=
  let (a, r) := span key_char k in
  match snd (span is_digit r) with
  | [] => Some (a, [], false)
  | "@"%char :: r1 =>
      let '(two, l) := match r1 with "@"%char :: l => (true, l) | _ => (false, r1) end in
      if forallb is_letter l then Some (a, l, two) else None
  | _ => None
  end.
Definition parse_item (k v : str) : str * mtext * bool :=
  match parse_key k with
  | None => (k, mkT v None false, false)
  | Some (a, l, two) =>
      (a, mkT v match l with [] => None | _ => Some (map to_lower l) end
              (match l with [] => false | _ => negb two end), valid_key a)
  end.

(** mdValueEqual (m21utilities.py:2879-2904): texts by their text and language; other
    values by music21's equality, which compares all parts. *)
Definition lang_eqb (a b : option str) : bool :=
  match a, b with Some x, Some y => str_eqb x y | None, None => true | _, _ => false end.
Definition mtext_eqb (a b : mtext) : bool :=
  str_eqb (t_data a) (t_data b) && lang_eqb (t_lang a) (t_lang b) && Bool.eqb (t_trans a) (t_trans b).
Fixpoint mtexts_eqb (a b : list mtext) : bool :=
  match a, b with
  | [], [] => true
  | x :: a', y :: b' => mtext_eqb x y && mtexts_eqb a' b'
  | _, _ => false
  end.
Definition same_value (a b : mval) : bool :=
  match a, b with
  | MText x, MText y => str_eqb (t_data x) (t_data y) && lang_eqb (t_lang x) (t_lang y)
  | MContrib r x, MContrib s y => str_eqb r s && mtexts_eqb x y
  | MOther x, MOther y => str_eqb x y
  | _, _ => false
  end.

(** The values under a name. *)
Definition get (n : str) (md : metadata) : list mval :=
  map snd (filter (fun it => str_eqb (fst it) n) md).
(** addIfNotADuplicate (m21utilities.py:2805-2868), addCustomIfNotADuplicate (2907-2918). *)
Definition add_new (n : str) (v : mval) (md : metadata) : metadata :=
  if existsb (fun x => same_value x v) (get n md) then md else md ++ [(n, v)].

(** The loop of _createScoreMetadata (humdrumfile.py:10860-10936). *)
Definition read_item (md : metadata) (kv : str * str) : metadata :=
  let '(k0, t, standard) := parse_item (fst kv) (snd kv) in
  let k := if str_eqb k0 (S_ "MRD") then S_ "MDT" else k0 in
  let name := match assoc_str k ref_table with
              | Some ((_ :: _) as n) => Some n
              | _ => if str_eqb k (S_ "ACO") then Some (S_ "collectionDesignation") else None
              end in
  match name with
  | Some n => add_new n (conv n t) md
  | None =>
      if standard then
        match key_role k with
        | Some role => add_new (S_ "otherContributor") (MContrib role [t]) md
        | None =>
            if date_key k then
              match fix_date (t_data t) with
              | Some d => add_new (S_ "humdrum:" ++ k) (MText (mkT d (t_lang t) (t_trans t))) md
              | None => md
              end
            else add_new (S_ "humdrum:" ++ k) (MText t) md
        end
      else md ++ [(S_ "raw:" ++ fst kv, MText (mkT (snd kv) None false))]
  end.

(** _createScoreMetadata (humdrumfile.py:10842-10936); the software entry comes first. *)
Definition read_metadata (lines : list (bool * str)) : metadata :=
  fold_left read_item (biblio lines) [(S_ "software", MText (mkT (S_ "converter21") None false))].
End Read.
