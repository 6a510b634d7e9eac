(** Composers in the head of MEI files, with their aliases, dates, places and nationalities:
    how they are written (converter21/mei/meimetadata.py) and read
    (converter21/mei/meimetadatareader.py).

    Only the elements of the encoded work are modelled; the short list of composers in the
    sources (meimetadata.py:920-959) is not. *)
From Coq Require Import List Ascii String Arith NArith ZArith Lia Bool.
From Verif Require Import PyStr LayoutModel ClefModel MeiTextModel MeiIdsModel MeiStyleModel MeiWorkModel.
Import ListNotations.

(** A contributor of music21, with its first name (m21utilities.py:2722-2726). *)
Record person := Person { c_name : str; c_role : str }.
(** What metadata say about composers: the properties composer, attributedComposer,
    suspectedComposer, composerCorporate, composerAlias, and the texts of the custom keys
    humdrum:CDT, CBL, CDL and CNT (dates, place of birth, place of death, nationality). *)
Record composers := Composers {
  k_com : list person; k_coa : list person; k_cos : list person; k_coc : list person; k_col : list str;
  k_cdt : list str; k_cbl : list str; k_cdl : list str; k_cnt : list str }.

(** ** Writing (meimetadata.py:962-1147, [makeComposerElements]) *)
Section Write.
(** [lay]: white space put in by [indent]; [birth_death]: the two dates
    [isoDateFromM21DatePrimitive] and [split] give for a text (1105-1126), empty if there is
    none. *)
Context (lay : str) (birth_death : str -> str * str).

(** 1019-1039. *)
Definition composer_analog (role : str) : str :=
  if str_eqb role (S_ "attributedComposer") then S_ "humdrum:COA"
  else if str_eqb role (S_ "suspectedComposer") then S_ "humdrum:COS"
  else if str_eqb role (S_ "composerCorporate") then S_ "humdrum:COC" else S_ "humdrum:COM".
Definition composer_cert (role : str) : list (str * str) :=
  if str_eqb role (S_ "attributedComposer") then [(S_ "cert", S_ "medium")]
  else if str_eqb role (S_ "suspectedComposer") then [(S_ "cert", S_ "low")] else [].
Definition composer_tag (role : str) : string := if str_eqb role (S_ "composerCorporate") then "corpName" else "persName".

Definition opt_leaf (name : string) (attr : list (str * str)) (t : option str) : list xml :=
  match t with None => [] | Some t => [leaf lay name attr t] end.
Definition date_leaf (name : string) (t : str) : list xml :=
  match t with [] => [] | _ => [leaf lay name [(S_ "encoding", S_ "edtf")] t] end.
(** 1067-1145. *)
Definition mads_el (id : str) (c : person) (alias cdt cbl cdl cnt : option str) : xml :=
  El (S_ "mads") [(S_ "ID", id)] lay
    ([El (S_ "authority") [] lay
        [El (S_ "name") (if str_eqb (c_role c) (S_ "composerCorporate") then [(S_ "type", S_ "corporate")] else []) lay
           [leaf lay "namePart" [] (c_name c)] lay] lay]
     ++ match alias with
        | None => []
        | Some a => [El (S_ "variant") [(S_ "type", S_ "other"); (S_ "otherType", S_ "humdrum:COL")] lay
                       [El (S_ "name") [] lay [leaf lay "namePart" [] a] lay] lay]
        end
     ++ [El (S_ "personInfo") [] lay
           (match cdt with
            | None => []
            | Some d => date_leaf "birthDate" (fst (birth_death d)) ++ date_leaf "deathDate" (snd (birth_death d))
            end
            ++ opt_leaf "birthPlace" [] cbl ++ opt_leaf "deathPlace" [] cdl ++ opt_leaf "nationality" [] cnt) lay]) lay.

Definition mads_id (k : nat) : str := S_ "mads" ++ show_N (N.of_nat k).
(** One composer: number [i] of all, [k] of those with more about them. *)
Definition composer_el (md : composers) (i k : nat) (c : person) : xml * option xml :=
  let alias := nth_error (k_col md) i in
  let cdt := nth_error (k_cdt md) i in
  let cbl := nth_error (k_cbl md) i in
  let cdl := nth_error (k_cdl md) i in
  let cnt := nth_error (k_cnt md) i in
  let el (more : list (str * str)) :=
    El (S_ "composer") (composer_cert (c_role c)) lay
      [leaf lay (composer_tag (c_role c)) ([(S_ "analog", composer_analog (c_role c))] ++ more) (c_name c)] lay in
  match cdt, cbl, cdl, cnt with
  | None, None, None, None => (el [], None)
  | _, _, _, _ => (el [(S_ "auth.uri", "#"%char :: mads_id k)], Some (mads_el (mads_id k) c alias cdt cbl cdl cnt))
  end.
Fixpoint composer_els (md : composers) (i k : nat) (l : list person) : list xml * list xml :=
  match l with
  | [] => ([], [])
  | c :: r =>
      match composer_el md i k c with
      | (e, None) => let (es, ms) := composer_els md (S i) k r in (e :: es, ms)
      | (e, Some m) => let (es, ms) := composer_els md (S i) (S k) r in (e :: es, m :: ms)
      end
  end.
Definition all_composers (md : composers) : list person := k_com md ++ k_coa md ++ k_cos md ++ k_coc md.
(** The composer elements of the work, and its mads elements. *)
Definition write_composers (md : composers) : list xml * list xml := composer_els md 0 0 (all_composers md).
End Write.

(** ** Reading *)
Section Read.
(** [std], [std_name] as in MeiWorkModel.v; [range]: the text for two dates
    (meimetadatareader.py:877-893), None if one cannot be read. *)
Context (glyph_num glyph_name : str -> str) (std : str -> bool) (std_name : str -> str) (range : str -> str -> option str).

(** What has been read: keys with texts.  A key of Humdrum stands for the property that it
    names. *)
Definition found := list (str * str).
Definition texts (k : string) (f : found) : list str := map snd (filter (fun x => str_eqb (fst x) (humdrum ++ S_ k)) f).
Definition put (f : found) (k t : str) : found :=
  let k := if starts_with humdrum k then k else std_name k in
  if existsb (fun x => str_eqb (fst x) k && str_eqb (snd x) t) f then f else f ++ [(k, t)].

(** meimetadatareader.py:74-84 and 775-782: the last element with an id counts. *)
Definition mads_for (mads : list xml) (e : xml) : option xml :=
  match x_get (S_ "auth.uri") (x_attrs e) with
  | [] => None
  | uri => match removeOctothorpe uri with
           | [] => None
           | id => find (fun m => str_eqb (x_get (S_ "ID") (x_attrs m)) id) (rev mads)
           end
  end.
Definition stripped (o : option xml) : str := match o with None => [] | Some e => strip (x_text e) end.
Definition put_text (f : found) (k : string) (t : str) : found := match t with [] => f | _ => put f (humdrum ++ S_ k) t end.
(** 849-866: the alias. *)
Definition alias_of (mads : xml) : str :=
  match find_first (S_ "variant") (x_subs mads) with
  | None => []
  | Some v =>
      let type := x_get (S_ "type") (x_attrs v) in
      if str_eqb type (S_ "abbreviation")
         || (str_eqb type (S_ "other") && mem (x_get (S_ "otherType") (x_attrs v)) [S_ "humdrum:COL"; S_ "alias"; S_ "stageName"])
      then match find_first (S_ "name") (x_subs v) with
           | None => []
           | Some n => stripped (find_first (S_ "namePart") (x_subs n))
           end
      else []
  end.
(** 868-918: the rest. *)
Definition dates_of (info : xml) : str :=
  let birth := stripped (find_first (S_ "birthDate") (x_subs info)) in
  let death := stripped (find_first (S_ "deathDate") (x_subs info)) in
  match birth, death with
  | _ :: _, _ :: _ => opt_str (range birth death)
  | _, _ => []
  end.
Definition processMads (f : found) (mads : xml) : found :=
  let f := put_text f "COL" (alias_of mads) in
  match find_first (S_ "personInfo") (x_subs mads) with
  | None => f
  | Some info =>
      let f := put_text f "CDT" (dates_of info) in
      let f := put_text f "CBL" (stripped (find_first (S_ "birthPlace") (x_subs info))) in
      let f := put_text f "CDL" (stripped (find_first (S_ "deathPlace") (x_subs info))) in
      put_text f "CNT" (stripped (find_first (S_ "nationality") (x_subs info)))
  end.
Definition with_mads (mads : list xml) (e : xml) (f : found) : found := match mads_for mads e with None => f | Some m => processMads f m end.

(** 801-808 and 835-845: the key for a name. *)
Definition person_key (corp : bool) (analog type cert : str) : str :=
  if usable std analog then analog
  else if corp then S_ "humdrum:COC"
  else if str_eqb type (S_ "alias") then S_ "humdrum:COL"
  else if str_eqb cert (S_ "medium") then S_ "humdrum:COA"
  else if str_eqb cert (S_ "low") then S_ "humdrum:COS"
  else S_ "humdrum:COM".
(** 784-847, [processComposer]. *)
Definition processComposer (mads : list xml) (f : found) (e : xml) : found :=
  let cert := x_get (S_ "cert") (x_attrs e) in
  let key corp a := person_key corp (x_get (S_ "analog") a) (x_get (S_ "type") a) cert in
  let f := match strip (x_text e) with [] => f | n => with_mads mads e (put f (key false (x_attrs e)) n) end in
  fold_left (fun f tag =>
    fold_left (fun f n =>
      match strip (fst (text_of glyph_num glyph_name [] n)) with
      | [] => f
      | name => with_mads mads n (put f (key (str_eqb tag (S_ "corpName")) (x_attrs n)) name)
      end) (filter (fun s => str_eqb (x_name s) tag) (x_subs e)) f) [S_ "persName"; S_ "corpName"; S_ "name"] f.
Definition read_composers (els mads : list xml) : found := fold_left (processComposer mads) els [].
End Read.
