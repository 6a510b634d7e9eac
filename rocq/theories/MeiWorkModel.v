(** Titles, numbers and related works in the head of MEI files: how they are written
    (converter21/mei/meimetadata.py) and read (converter21/mei/meimetadatareader.py),
    with the tables and the test for duplicates of converter21/shared/m21utilities.py.

    Modelled are the properties of [ref_names] and those in custom keys of Humdrum; all
    their values are texts.  The other parts of the head are left out: composers and other
    persons, dates and places, sources, encodingDesc. *)
From Coq Require Import List Ascii String Arith NArith ZArith Lia Bool.
From Verif Require Import PyStr LayoutModel ClefModel MeiTextModel MeiIdsModel MeiStyleModel.
Import ListNotations.

(** A text of music21's metadata ([Text]): data, language, isTranslated (None is false). *)
Record mtext := MText { v_data : str; v_lang : option str; v_trans : bool }.
(** Metadata of music21: the name of a property, or a custom key, with a value; the values
    of one name in their order. *)
Definition metadata := list (str * mtext).
Definition values (p : str) (md : metadata) : list mtext := map snd (filter (fun x => str_eqb (fst x) p) md).

(** m21utilities.py:2522-2531, 2541-2543, 2550-2551 (part of
    humdrumReferenceKeyToM21MetadataPropertyUniqueName). *)
Definition ref_names : list (str * str) :=
  [ (S_ "OTL", S_ "title"); (S_ "OTP", S_ "popularTitle"); (S_ "OTA", S_ "alternativeTitle"); (S_ "OPR", S_ "parentTitle");
    (S_ "OAC", S_ "actNumber"); (S_ "OSC", S_ "sceneNumber"); (S_ "OMV", S_ "movementNumber"); (S_ "OMD", S_ "movementName");
    (S_ "OPS", S_ "opusNumber"); (S_ "ONM", S_ "number"); (S_ "GTL", S_ "groupTitle"); (S_ "GAW", S_ "associatedWork");
    (S_ "GCO", S_ "collectionDesignation"); (S_ "SCT", S_ "scholarlyCatalogAbbreviation"); (S_ "SCA", S_ "scholarlyCatalogName") ].
(** m21utilities.py:2596-2599, its inverse. *)
Definition name_refs : list (str * str) := map (fun x => (snd x, fst x)) ref_names.
Definition humdrum : str := S_ "humdrum:".

Definition lower (s : str) : str := map to_lower s.

(** ** Writing *)

(** meimetadata.py:36-66 and 101-114: the key under which the writer keeps a property:
    the reference key of the name, or of a key of Humdrum, or the name itself. *)
Definition content_key (name : str) : str :=
  match assoc_str name name_refs with
  | Some r => r
  | None => if starts_with humdrum name then skipn 8 name else name
  end.
Definition contents (k : string) (md : metadata) : list mtext :=
  map snd (filter (fun x => str_eqb (content_key (fst x)) (S_ k)) md).

(** The language of a text, if it has one. *)
Definition lang_of (v : mtext) : str := opt_str (v_lang v).
Definition lang_attr (v : mtext) : list (str * str) := attr_if (S_ "xml:lang") (lower (lang_of v)).

(** [indent] (meiwriter.py:83) of an element with sub-elements and without text, and the
    white space after an element; [lay] stands for it. *)
Section Write.
Context (lay : str).

Definition leaf (name : string) (attr : list (str * str)) (text : str) : xml := El (S_ name) attr text [] lay.

(** meimetadata.py:1227-1366: the title parts of one kind. *)
Definition part (type ref : string) (v : mtext) : xml :=
  leaf "titlePart" ([(S_ "type", S_ type); (S_ "analog", humdrum ++ S_ ref)] ++ lang_attr v) (v_data v).
(** meimetadata.py:1227-1249. *)
Definition main_part (v : mtext) : xml := part (if v_trans v then "translated" else "main") "OTL" v.
(** All title parts, translated or not. *)
Definition title_parts (trans : bool) (md : metadata) : list xml :=
  let those (k : string) := filter (fun v => Bool.eqb (v_trans v) trans) (contents k md) in
  map main_part (those "OTL"%string)
  ++ map (part "movementName" "OMD") (those "OMD"%string) ++ map (part "number" "ONM") (those "ONM"%string)
  ++ map (part "movementNumber" "OMV") (those "OMV"%string) ++ map (part "opusNumber" "OPS") (those "OPS"%string)
  ++ map (part "actNumber" "OAC") (those "OAC"%string) ++ map (part "sceneNumber" "OSC") (those "OSC"%string).
Definition other_title (type ref : string) (v : mtext) : xml :=
  leaf "title" ([(S_ "type", S_ type); (S_ "analog", humdrum ++ S_ ref)] ++ lang_attr v) (v_data v).

(** meimetadata.py:1210-1413, [makeTitleElements]. *)
Definition titleElements (md : metadata) : list xml :=
  let all (type : string) (parts : list xml) : list xml :=
    match parts with [] => [] | _ => [El (S_ "title") [(S_ "type", S_ type)] lay parts lay] end in
  all "uniform"%string (title_parts false md) ++ all "translated"%string (title_parts true md)
  ++ map (other_title "alternative" "OTA") (contents "OTA" md) ++ map (other_title "popular" "OTP") (contents "OTP" md).

(** meimetadata.py:1150-1175, [getBestName]. *)
Definition bestName (items : list mtext) (required : str) : option mtext :=
  let ok (v : mtext) := match required with
                        | [] => negb (v_trans v)
                        | _ => match lang_of v with [] => false | l => str_eqb (lower l) (lower required) end
                        end in
  match find ok items with Some v => Some v | None => hd_error items end.

(** meimetadata.py:1177-1208, [makeSimpleTitleElement]. *)
Definition simpleTitle (md : metadata) : xml :=
  let bestTitle := bestName (contents "OTL" md) [] in
  let firstLang := match bestTitle with Some v => lang_of v | None => [] end in
  let bestMovement := bestName (contents "OMD" md) firstLang in
  let firstLang := match bestTitle, bestMovement with None, Some v => lower (lang_of v) | _, _ => firstLang end in
  match bestTitle, bestMovement with
  | None, None => leaf "title" [] []
  | Some t, Some m =>
      if str_eqb (v_data t) (v_data m) then leaf "title" (attr_if (S_ "xml:lang") firstLang) (v_data t)
      else leaf "title" (attr_if (S_ "xml:lang") firstLang) (v_data t ++ S_ ", " ++ v_data m)
  | Some v, None | None, Some v => leaf "title" (attr_if (S_ "xml:lang") firstLang) (v_data v)
  end.

(** meimetadata.py:1555-1646: a work that the encoded one belongs to. *)
Definition related (type ref : string) (titles : list mtext) (number : nat) : list xml :=
  match titles with
  | [] => []
  | _ => [El (S_ "work") [(S_ "xml:id", S_ "work" ++ show_N (N.of_nat number) ++ S_ "_" ++ S_ type); (S_ "type", S_ type)] lay
            (map (fun v => leaf "title" [(S_ "analog", humdrum ++ S_ ref)] (v_data v)) titles) lay]
  end.

(** meimetadata.py:1986-2018: what ties the encoded work to another. *)
Definition relation (rel type : string) (w : list xml) : list xml :=
  match w with
  | [] => []
  | e :: _ => [leaf "relation" [(S_ "rel", S_ rel); (S_ "type", S_ type); (S_ "target", "#"%char :: x_get (S_ "xml:id") (x_attrs e))] []]
  end.

(** meimetadata.py:1508-2025, [makeWorkListElement], as far as it is modelled. *)
Definition workList (md : metadata) : list xml :=
  let n0 := 0 in
  let parent := related "parent" "OPR" (contents "OPR" md) n0 in
  let n1 := n0 + length parent in
  let group := related "group" "GTL" (contents "GTL" md) n1 in
  let n2 := n1 + length group in
  let assoc := related "associated" "GAW" (contents "GAW" md) n2 in
  let n3 := n2 + length assoc in
  let collection := related "collection" "GCO" (contents "GCO" md ++ contents "ACO" md) n3 in
  let n4 := n3 + length collection in
  let identifier (ref : string) := map (fun v => leaf "identifier" [(S_ "analog", humdrum ++ S_ ref)] (v_data v)) (contents ref md) in
  let inside := identifier "SCA"%string ++ identifier "SCT"%string ++ identifier "OPS"%string ++ titleElements md in
  let relations := relation "isPartOf" "isChildOfParent" parent ++ relation "isPartOf" "isMemberOfGroup" group
    ++ relation "isVersionOf" "isAssociatedWith" assoc ++ relation "isPartOf" "isMemberOfCollection" collection in
  parent ++ group ++ assoc ++ collection
  ++ match inside with
     | [] => []
     | _ => [El (S_ "work") [(S_ "xml:id", S_ "work" ++ show_N (N.of_nat n4) ++ S_ "_encoded"); (S_ "type", S_ "encoded")] lay
               (inside ++ match relations with [] => [] | _ => [El (S_ "relationList") [] lay relations lay] end) lay]
     end.
End Write.

(** ** Reading *)

Section Read.
(** Characters of glyphs (MeiTextModel.v); which keys other than those of Humdrum are usable
    (m21utilities.py:2752-2803), and the names for them. *)
Context (glyph_num glyph_name : str -> str) (std : str -> bool) (std_name : str -> str).

(** m21utilities.py:2752-2803, [isUsableMetadataKey]. *)
Definition usable (k : str) : bool := starts_with humdrum k || std k.
(** m21utilities.py:2806-2843: the name for a key; a key of Humdrum without a name is a
    custom key. *)
Definition name_of (k : str) : str :=
  if starts_with humdrum k then match assoc_str (skipn 8 k) ref_names with Some n => n | None => k end else std_name k.
(** m21utilities.py:2880-2904, [mdValueEqual], for texts without other attributes. *)
Definition opt_eqb (a b : option str) : bool :=
  match a, b with Some x, Some y => str_eqb x y | None, None => true | _, _ => false end.
Definition same (a b : mtext) : bool := str_eqb (v_data a) (v_data b) && opt_eqb (v_lang a) (v_lang b).
(** m21utilities.py:2806-2868 and 2907-2920, [addIfNotADuplicate]. *)
Definition add (md : metadata) (x : str * mtext) : metadata :=
  let n := name_of (fst x) in
  if existsb (fun v => same v (snd x)) (values n md) then md else md ++ [(n, snd x)].

(** meimetadatareader.py:1289-1299: types whose titles are left out; the missing comma
    makes one word of two. *)
Definition left_out : list str :=
  [S_ "alternative"; S_ "popular"; S_ "movementName"; S_ "numbermovementNumber"; S_ "opusNumber"; S_ "actNumber"; S_ "sceneNumber"].
(** meimetadatareader.py:1285-1330: the key for a title; None: it is left out. *)
Definition title_key (ctx : str) (attrs : list (str * str)) : option str :=
  let type := x_get (S_ "type") attrs in
  let analog := x_get (S_ "analog") attrs in
  match ctx with
  | _ :: _ => if str_eqb analog ctx then Some analog
              else if usable analog then None
              else if mem type left_out then None else Some ctx
  | [] => if usable analog then Some analog
          else if str_eqb type (S_ "alternative") then
            (if str_eqb (x_get (S_ "label") attrs) (S_ "popular") then Some (S_ "humdrum:OTP") else Some (S_ "humdrum:OTA"))
          else if str_eqb type (S_ "popular") then Some (S_ "humdrum:OTP")
          else if mem type [S_ "movementName"; S_ "number"; S_ "movementNumber"; S_ "opusNumber"; S_ "actNumber"; S_ "sceneNumber"] then
            match assoc_str type name_refs with Some r => Some (humdrum ++ r) | None => None end
          else Some (S_ "humdrum:OTL")
  end.
(** meimetadatareader.py:1280-1350: what one title, or title part, adds, and the original
    language known after it. *)
Definition title_text (ctx orig : str) (e : xml) (text : str) (md : metadata) : str * metadata :=
  match strip text with
  | [] => (orig, md)
  | c :: s =>
      let a := x_attrs e in
      let type := x_get (S_ "type") a in
      let lang := assoc_str (S_ "xml:lang") a in
      let orig := match orig, opt_str lang with
                  | [], _ :: _ => if mem type [[]; S_ "main"; S_ "uniform"] then opt_str lang else []
                  | _, _ => orig
                  end in
      let trans := match orig, opt_str lang with
                   | _ :: _, _ :: _ => negb (str_eqb (opt_str lang) orig)
                   | _, _ => str_eqb type (S_ "translated")
                   end in
      (orig, match title_key ctx a with Some k => add md (k, MText (c :: s) lang trans) | None => md end)
  end.
(** meimetadatareader.py:1265-1354, [processTitleOrTitlePart], for a title. *)
Definition processTitle (ctx : str) (md : metadata) (e : xml) : metadata :=
  let (orig, md) := title_text ctx [] e (fst (text_of glyph_num glyph_name (S_ "titlePart") e)) md in
  fold_left (fun md p => snd (title_text ctx orig p (fst (text_of glyph_num glyph_name [] p)) md))
    (filter (fun s => str_eqb (x_name s) (S_ "titlePart")) (x_subs e)) md.

(** meimetadatareader.py:751-773, [processIdentifier]; Köchel is not modelled. *)
Definition processIdentifier (md : metadata) (e : xml) : metadata :=
  match strip (fst (text_of glyph_num glyph_name [] e)) with
  | [] => md
  | c :: s =>
      let text := c :: s in
      let analog := x_get (S_ "analog") (x_attrs e) in
      let v := MText text None false in
      if usable analog then add md (analog, v)
      else if starts_with (S_ "Koechel") text then add md (S_ "humdrum:SCA", v)
      else if starts_with (S_ "BWV") text then add md (S_ "humdrum:SCT", v)
      else if str_eqb (x_get (S_ "type") (x_attrs e)) (S_ "albumCatalogNumber") then add md (S_ "humdrum:RC#", v)
      else md
  end.
(** meimetadatareader.py:708-734, [processMainWorkSubElement], as far as it is modelled. *)
Definition processMain (md : metadata) (e : xml) : metadata :=
  if str_eqb (x_name e) (S_ "identifier") then processIdentifier md e
  else if str_eqb (x_name e) (S_ "title") then processTitle [] md e else md.

(** *** Relations between works (meimetadatareader.py:529-618) *)

(** What the reader has noted about the works (by their places in the list): the pairs of
    each kind, and the local variable [group], which is not always bound. *)
Inductive variable := Unbound | Bound (w : option nat).
Record links := Links {
  l_parents : list (nat * nat); l_groups : list (nat * nat); l_collections : list (nat * nat);
  l_children : list (nat * nat); l_members : list (nat * nat); l_group : variable }.
Definition no_links : links := Links [] [] [] [] [] Unbound.

(** [findFirstWithAttributeValue(_XMLID, id, recurse=False)] (meielement.py:100-118). *)
Fixpoint find_id (id : str) (ws : list xml) (i : nat) : option nat :=
  match ws with
  | [] => None
  | w :: r => match assoc_str (S_ "xml:id") (x_attrs w) with
              | Some x => if str_eqb x id then Some i else find_id id r (S i)
              | None => find_id id r (S i)
              end
  end.
Inductive kind_of_link := LCollection | LGroup | LParent.
Definition note_link (k : kind_of_link) (child par : nat) (l : links) : links :=
  match k with
  | LCollection => Links (l_parents l) (l_groups l) ((child, par) :: l_collections l) (l_children l) ((par, child) :: l_members l) (l_group l)
  | LGroup => Links (l_parents l) ((child, par) :: l_groups l) (l_collections l) (l_children l) ((par, child) :: l_members l) (l_group l)
  | LParent => Links ((child, par) :: l_parents l) (l_groups l) (l_collections l) ((par, child) :: l_children l) (l_members l) (l_group l)
  end.
Definition set_group (v : option nat) (l : links) : links := Links (l_parents l) (l_groups l) (l_collections l) (l_children l) (l_members l) (Bound v).

(** meimetadatareader.py:563-580, 589-606 and 612-629, for one target.  In the last two
    cases the work found is called [member] or [parent], but [group] is used; None: that is
    not bound, or bound to None. *)
Definition link_target (ws : list xml) (i : nat) (rel type : str) (l : links) (t : str) : option links :=
  let found := find_id (removeOctothorpe t) ws 0 in
  if str_eqb rel (S_ "isPartOf") then
    let k := if str_eqb type (S_ "isMemberOfCollection") then LCollection else if str_eqb type (S_ "isMemberOfGroup") then LGroup
             else if str_eqb type (S_ "isChildOfParent") then LParent else LCollection in
    let l := set_group found l in
    match found with None => Some l | Some g => Some (note_link k i g l) end
  else match found with
       | None => Some l
       | Some _ =>
           match l_group l with
           | Bound (Some g) => if str_eqb rel (S_ "hasPart") then Some (note_link LCollection g i l)
                               else Some (note_link LParent i g l)
           | _ => None
           end
       end.
Fixpoint fold_opt {A B} (f : A -> B -> option A) (l : list B) (a : A) : option A :=
  match l with [] => Some a | x :: r => match f a x with None => None | Some a' => fold_opt f r a' end end.
(** meimetadatareader.py:539-548. *)
Definition link_relation (ws : list xml) (i : nat) (l : links) (e : xml) : option links :=
  let rel := x_get (S_ "rel") (x_attrs e) in
  let target := x_get (S_ "target") (x_attrs e) in
  match target with
  | [] => Some l
  | _ => if mem rel [S_ "isPartOf"; S_ "hasPart"; S_ "host"]
         then fold_opt (link_target ws i rel (x_get (S_ "type") (x_attrs e))) (split_char " " target) l
         else Some l
  end.
Definition relations_of (w : xml) : list xml :=
  match find_first (S_ "relationList") (x_subs w) with
  | None => []
  | Some r => filter (fun s => str_eqb (x_name s) (S_ "relation")) (x_subs r)
  end.
Fixpoint numbered {A} (i : nat) (l : list A) : list (nat * A) := match l with [] => [] | x :: r => (i, x) :: numbered (S i) r end.
(** meimetadatareader.py:529-629. *)
Definition link_works (ws : list xml) : option links :=
  fold_opt (fun l (x : nat * xml) => fold_opt (link_relation ws (fst x)) (relations_of (snd x)) l) (numbered 0 ws) no_links.

(** meimetadatareader.py:634-675: the works of each kind, by their places.  (The reader
    compares works by identity.) *)
Definition of_type (t : string) (ws : list xml) : list nat :=
  map fst (filter (fun x : nat * xml => str_eqb (x_get (S_ "type") (x_attrs (snd x))) (S_ t)) (numbered 0 ws)).
Definition has (i : nat) (l : list (nat * nat)) : bool := existsb (fun x => Nat.eqb (fst x) i) l.
Definition main_works (ws : list xml) (l : links) : list nat :=
  match map fst (filter (fun x : nat * xml => negb (mem (x_get (S_ "type") (x_attrs (snd x))) [S_ "associated"; S_ "parent"; S_ "collection"; S_ "group"])
                                              && negb (has (fst x) (l_children l)) && negb (has (fst x) (l_members l))) (numbered 0 ws)) with
  | [] => [0]
  | m => m
  end.
(** Those of one kind that the main works name, after the typed ones; the lists of [links]
    are in reverse order. *)
Definition with_linked (typed mains : list nat) (l : list (nat * nat)) : list nat :=
  fold_left (fun acc m => fold_left (fun acc g => if existsb (Nat.eqb g) acc then acc else acc ++ [g]) (map snd (filter (fun x => Nat.eqb (fst x) m) (rev l))) acc) mains typed.

Definition titles_of (w : xml) : list xml := filter (fun s => str_eqb (x_name s) (S_ "title")) (x_subs w).
Definition read_related (ctx : string) (ws : list xml) (is : list nat) (md : metadata) : metadata :=
  fold_left (fun md i => fold_left (processTitle (humdrum ++ S_ ctx)) (titles_of (nth i ws (El [] [] [] [] []))) md) is md.
(** meimetadatareader.py:513-706, [processWorkList]; [ws] are its `work` elements. *)
Definition processWorkList (ws : list xml) : option metadata :=
  match ws with
  | [] => Some []
  | _ =>
      match link_works ws with
      | None => None
      | Some l =>
          let mains := main_works ws l in
          let md := read_related "OPR" ws (with_linked (of_type "parent" ws) mains (l_parents l)) [] in
          let md := read_related "GTL" ws (with_linked (of_type "group" ws) mains (l_groups l)) md in
          let md := read_related "GCO" ws (with_linked (of_type "collection" ws) mains (l_collections l)) md in
          let md := read_related "GAW" ws (of_type "associated" ws) md in
          Some (fold_left (fun md i => fold_left processMain (x_subs (nth i ws (El [] [] [] [] []))) md) mains md)
      end
  end.

(** music21's equality of texts. *)
Definition text_eq (a b : mtext) : bool := same a b && Bool.eqb (v_trans a) (v_trans b).
(** meimetadatareader.py:1356-1409, [combineFileDescEncodingDescAndWorkListMetadata], without
    encodingDesc. *)
Definition combine (file work : metadata) : metadata :=
  let out := filter (fun x => negb (existsb (fun y => str_eqb (fst y) (fst x)) work)) file ++ work in
  match values (S_ "title") out, values (S_ "movementName") out with
  | [t], [m] => if text_eq t m then filter (fun x => negb (str_eqb (fst x) (S_ "title"))) out else out
  | _, _ => out
  end.
(** meimetadatareader.py:44-72, for the titles of fileDesc and the works of workList. *)
Definition read_head (title : xml) (ws : list xml) : option metadata :=
  match processWorkList ws with None => None | Some work => Some (combine (processTitle [] [] title) work) end.
End Read.
