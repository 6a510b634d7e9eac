(** HumdrumToken: cached classification, subtokens, duration, linked layout
    parameters; HumdrumFileBase.getTrackSequence; HumdrumLine's reference
    records; Convert.mensToDuration. *)
From Coq Require Export String Ascii List NArith ZArith Bool Arith.
Export ListNotations.
From Coq Require Import QArith.
Local Close Scope Q_scope.
From Verif Require Export PyStr.
From Verif Require Import HashModel LayoutModel BarModel RecipModel.
Open Scope list_scope.

(** ** Cached classification *)

(** The cached properties (converter21/humdrum/humdrumtoken.py lines 220-257). *)
Inductive prop :=
  | isInterpretation | isComment | isGlobalComment | isBarline | isNull
  | isLabel | isChord | isExclusive | isSplit | isMerge | isExchange | isTerminate | isAdd
  | isRecipOnly | hasBeam | hasFermata | isStaffInterpretation | isPart | isGroup
  | isData | isLocalComment | isNonNullData | isNullData | isManipulator
  | isKern | isRecip | isMens | hasRhythm | isStaffDataType
  | isRest | isNote.

Definition prop_eq_dec (a b : prop) : {a = b} + {a <> b}.
Proof. decide equality. Defined.

(** cachedTokenTextProperties (lines 220-247). *)
Definition text_prop (p : prop) : bool :=
  match p with
  | isKern | isRecip | isMens | hasRhythm | isStaffDataType => false
  | _ => true
  end.

(** cachedDataTypeProperties (lines 249-257). *)
Definition dtype_prop (p : prop) : bool :=
  match p with
  | isKern | isRecip | isMens | hasRhythm | isStaffDataType | isRest | isNote => true
  | _ => false
  end.

(** What a token can see of the rest of the file, constant here: the text of the
    start token of each track as seen from each line (humaddress.py lines 213-229,
    HumdrumLine.trackStart), and the text of the token a null token stands for
    ([None]: nullResolution is the token itself; lines 2689-2699). *)
Record env := mkEnv { trackStart : nat -> option Z -> option str; nullText : option str }.

(** A token (lines 85-209) with its address's track, line, and cached start token
    (humaddress.py lines 16-27).  [duration] is [None] after analyzing a text whose
    rhythm raises. *)
Record tok := mkTok {
  k_text : str;
  k_track : option Z;
  k_owner : option nat;
  k_dtype : option str;
  k_cache : prop -> option bool;
  k_tflag : bool;
  k_dflag : bool;
  k_subs : list str;
  k_subsgen : bool;
  k_analyzed : bool;
  k_dur : option Q }.

(** [HumdrumToken(text)] (lines 85-209). *)
Definition new_tok (s : str) : tok :=
  mkTok s None None None (fun _ => None) false false [] false false (Some (-1)%Q).

Definition with_cache (c : prop -> option bool) (t : tok) : tok :=
  mkTok (k_text t) (k_track t) (k_owner t) (k_dtype t) c (k_tflag t) (k_dflag t)
        (k_subs t) (k_subsgen t) (k_analyzed t) (k_dur t).
Definition with_tflag (b : bool) (t : tok) : tok :=
  mkTok (k_text t) (k_track t) (k_owner t) (k_dtype t) (k_cache t) b (k_dflag t)
        (k_subs t) (k_subsgen t) (k_analyzed t) (k_dur t).
Definition with_dflag (b : bool) (t : tok) : tok :=
  mkTok (k_text t) (k_track t) (k_owner t) (k_dtype t) (k_cache t) (k_tflag t) b
        (k_subs t) (k_subsgen t) (k_analyzed t) (k_dur t).
Definition with_addr (tr : option Z) (o : option nat) (d : option str) (t : tok) : tok :=
  mkTok (k_text t) tr o d (k_cache t) (k_tflag t) (k_dflag t)
        (k_subs t) (k_subsgen t) (k_analyzed t) (k_dur t).
Definition with_subs (l : list str) (b : bool) (t : tok) : tok :=
  mkTok (k_text t) (k_track t) (k_owner t) (k_dtype t) (k_cache t) (k_tflag t) (k_dflag t)
        l b (k_analyzed t) (k_dur t).
Definition with_dur (b : bool) (q : option Q) (t : tok) : tok :=
  mkTok (k_text t) (k_track t) (k_owner t) (k_dtype t) (k_cache t) (k_tflag t) (k_dflag t)
        (k_subs t) (k_subsgen t) b q.

(** lines 261-268 and 270-277. *)
Definition clear_props (which : prop -> bool) (t : tok) : tok :=
  with_cache (fun p => if which p then None else k_cache t p) t.
Definition clearTokenText (t : tok) : tok :=
  if k_tflag t then with_tflag false (clear_props text_prop t) else t.
Definition clearDataType (t : tok) : tok :=
  if k_dflag t then with_dflag false (clear_props dtype_prop t) else t.

(** The text setter (lines 288-293). *)
Definition set_text (s : str) (t : tok) : tok :=
  clearTokenText
    (mkTok s (k_track t) (k_owner t) (k_dtype t) (k_cache t) (k_tflag t) (k_dflag t)
           (k_subs t) false (k_analyzed t) (k_dur t)).

(** The track setter (lines 563-570, humaddress.py lines 66-74); above 1000 it
    raises before changing anything. *)
Definition set_track (z : option Z) (t : tok) : tok :=
  match z with
  | Some n =>
      if (1000 <? n)%Z then t
      else clearDataType (with_addr (if (n <? 0)%Z then None else Some n) (k_owner t) None t)
  | None => clearDataType (with_addr None (k_owner t) None t)
  end.

(** The ownerLine setter (lines 2521-2530, humaddress.py lines 182-189). *)
Definition set_owner (o : option nat) (t : tok) : tok :=
  clearDataType (with_addr (k_track t) o None t).

(** copyStructure (lines 2710-2722): takes the other token's address, keeps its
    own line.  The start token is forgotten with the line assignment. *)
Definition copy_structure (from t : tok) : tok :=
  with_addr (k_track from) (k_owner t) None t.

(** The dataType property's text (humaddress.py lines 213-229). *)
Definition data_type (e : env) (t : tok) : str * tok :=
  match k_dtype t with
  | Some s => (s, t)
  | None =>
      match k_owner t with
      | None => ([], t)
      | Some o =>
          match trackStart e o (k_track t) with
          | None => ([], t)
          | Some s => (s, with_addr (k_track t) (k_owner t) (Some s) t)
          end
      end
  end.

(** A getter in the pattern "try: return cached; except AttributeError: compute,
    store, set the flags". *)
Definition cached (p : prop) (tf df : bool) (compute : tok -> bool * tok) (t : tok) : bool * tok :=
  match k_cache t p with
  | Some b => (b, t)
  | None =>
      let (b, t1) := compute t in
      let t2 := with_cache (fun q => if prop_eq_dec q p then Some b else k_cache t1 q) t1 in
      let t3 := if tf then with_tflag true t2 else t2 in
      (b, if df then with_dflag true t3 else t3)
  end.

(** Python's short-circuiting [and], [or], [not]. *)
Definition andq (a b : tok -> bool * tok) (t : tok) : bool * tok :=
  let (x, t1) := a t in if x then b t1 else (false, t1).
Definition orq (a b : tok -> bool * tok) (t : tok) : bool * tok :=
  let (x, t1) := a t in if x then (true, t1) else b t1.
Definition notq (a : tok -> bool * tok) (t : tok) : bool * tok :=
  let (x, t1) := a t in (negb x, t1).
Definition on_text (f : str -> bool) (t : tok) : bool * tok := (f (k_text t), t).
Definition on_dtype (e : env) (f : str -> bool) (t : tok) : bool * tok :=
  let (s, t1) := data_type e t in (f s, t1).

(** The regular expression of isRecipOnly, digits, optionally a percent sign and
    digits, then dots (line 808).  Simplified: a final line feed is not allowed. *)
Definition recip_only (s : str) : bool :=
  let (ds, r) := span is_digit s in
  match ds with
  | [] => false
  | _ =>
      let r' := match r with
                | c :: r1 => if Ascii.eqb c "%"%char then
                               let (ds2, r2) := span is_digit r1 in
                               match ds2 with [] => r | _ => r2 end
                             else r
                | [] => r
                end in
      forallb (Ascii.eqb "."%char) r'
  end.

Definition has (c : ascii) (s : str) : bool := char_in c s.

(** convert.py lines 665-666 (and 320-321), 675-684, 330-334. *)
Definition isKernRest (s : str) : bool := has "r"%char s.
Definition is_note_letter (c : ascii) : bool := char_in c (S_ "abcdefgABCDEFG").
Definition isKernNote (s : str) : bool := negb (isKernRest s) && existsb is_note_letter s.
Definition isMensNote (s : str) : bool := existsb (fun c => char_in (to_lower c) (S_ "abcdefg")) s.

(** The functions of the text alone. *)
Definition null_texts : list str := [S_ "."; S_ "*"; S_ "!"].
Definition text_is_null (s : str) : bool := existsb (str_eqb s) null_texts.

(** The getters that look at the text only (lines 793-811, 1005-1107, 1988-2192,
    2195-2286). *)
Definition qInterpretation := cached isInterpretation true false (on_text (starts_with (S_ "*"))).
Definition qComment := cached isComment true false (on_text (starts_with (S_ "!"))).
Definition qGlobalComment := cached isGlobalComment true false (on_text (starts_with (S_ "!!"))).
Definition qBarline := cached isBarline true false (on_text (starts_with (S_ "="))).
Definition qNull := cached isNull true false (on_text text_is_null).
Definition qLabel := cached isLabel true false
  (on_text (fun s => starts_with (S_ "*>") s && negb (has "["%char s))).
Definition qChord := cached isChord true false (on_text (has " "%char)).
Definition qExclusive := cached isExclusive true false (on_text (starts_with (S_ "**"))).
Definition qSplit := cached isSplit true false (on_text (str_eqb (S_ "*^"))).
Definition qMerge := cached isMerge true false (on_text (str_eqb (S_ "*v"))).
Definition qExchange := cached isExchange true false (on_text (str_eqb (S_ "*x"))).
Definition qTerminate := cached isTerminate true false (on_text (str_eqb (S_ "*-"))).
Definition qAdd := cached isAdd true false (on_text (str_eqb (S_ "*+"))).
Definition qRecipOnly := cached isRecipOnly true false (on_text recip_only).
Definition qBeam := cached hasBeam true false
  (on_text (fun s => has "L"%char s || has "J"%char s || has "K"%char s || has "k"%char s)).
Definition qFermata := cached hasFermata true false (on_text (has ";"%char)).
Definition qStaffInterpretation :=
  cached isStaffInterpretation true false (on_text (starts_with (S_ "*staff"))).
Definition qPart := cached isPart true false (on_text (starts_with (S_ "*part"))).
Definition qGroup := cached isGroup true false (on_text (starts_with (S_ "*group"))).

(** isData (lines 2085-2096), isLocalComment (2052-2059), isNonNullData
    (2120-2127), isNullData (2136-2143), isManipulator (777-791). *)
Definition qData := cached isData true false
  (andq (notq qInterpretation) (andq (notq qComment) (notq qBarline))).
Definition qLocalComment := cached isLocalComment true false (andq qComment (notq qGlobalComment)).
Definition qNonNullData := cached isNonNullData true false (andq qData (notq qNull)).
Definition qNullData := cached isNullData true false (andq qData qNull).
Definition qManipulator := cached isManipulator true false
  (orq qSplit (orq qMerge (orq qExchange (orq qAdd (orq qTerminate qExclusive))))).

(** The getters that look at the data type (lines 440-491, 990-997, 1041-1048). *)
Definition qKern (e : env) := cached isKern false true (on_dtype e (str_eqb (S_ "**kern"))).
Definition qRecip (e : env) := cached isRecip false true (on_dtype e (str_eqb (S_ "**recip"))).
Definition qMens (e : env) := cached isMens false true (on_dtype e (str_eqb (S_ "**mens"))).
Definition rhythm_types : list str := [S_ "**kern"; S_ "**recip"; S_ "**mens"].
Definition qRhythm (e : env) := cached hasRhythm false true
  (on_dtype e (fun s => existsb (str_eqb s) rhythm_types)).
Definition qStaffDataType (e : env) := cached isStaffDataType false true (orq (qKern e) (qMens e)).

(** isRest (lines 1161-1185). *)
Definition qRest (e : env) := cached isRest true true
  (fun t =>
     let (isnull, t1) := qNull t in
     let tokenText := if isnull then match nullText e with Some s => s | None => k_text t end
                      else k_text t in
     let (d, t2) := qData t1 in
     if d then
       let (kern, t3) := qKern e t2 in
       if kern then (isKernRest tokenText, t3)
       else let (mens, t4) := qMens e t3 in
            if mens then (isKernRest tokenText, t4) else (false, t4)
     else (false, t2)).

(** isNote (lines 1194-1207): neither flag is set here. *)
Definition qNote (e : env) := cached isNote false false
  (fun t =>
     let (skip, t1) := orq (notq qData) qNull t in
     if skip then (false, t1)
     else
       let (kern, t2) := qKern e t1 in
       if kern then (isKernNote (k_text t2), t2)
       else let (mens, t3) := qMens e t2 in
            if mens then (isMensNote (k_text t3), t3) else (false, t3)).

Definition query (e : env) (p : prop) : tok -> bool * tok :=
  match p with
  | isInterpretation => qInterpretation | isComment => qComment
  | isGlobalComment => qGlobalComment | isBarline => qBarline | isNull => qNull
  | isLabel => qLabel | isChord => qChord | isExclusive => qExclusive | isSplit => qSplit
  | isMerge => qMerge | isExchange => qExchange | isTerminate => qTerminate | isAdd => qAdd
  | isRecipOnly => qRecipOnly | hasBeam => qBeam | hasFermata => qFermata
  | isStaffInterpretation => qStaffInterpretation | isPart => qPart | isGroup => qGroup
  | isData => qData | isLocalComment => qLocalComment | isNonNullData => qNonNullData
  | isNullData => qNullData | isManipulator => qManipulator
  | isKern => qKern e | isRecip => qRecip e | isMens => qMens e | hasRhythm => qRhythm e
  | isStaffDataType => qStaffDataType e
  | isRest => qRest e | isNote => qNote e
  end.

(** subtokens (lines 2374-2380) and replaceSubtoken (2386-2393). *)
Definition subtokens (t : tok) : list str * tok :=
  if k_subsgen t then (k_subs t, t)
  else let l := split_char " "%char (k_text t) in (l, with_subs l true t).

Fixpoint replace_nth (l : list str) (i : nat) (x : str) : list str :=
  match l, i with
  | [], _ => []
  | _ :: l', O => x :: l'
  | a :: l', S i' => a :: replace_nth l' i' x
  end.

Definition replaceSubtoken (i : Z) (s : str) (t : tok) : tok :=
  let (l, t1) := subtokens t in
  if (i <? 0)%Z || (Z.of_nat (length l) <=? i)%Z then t1
  else
    let l' := replace_nth l (Z.to_nat i) s in
    let t2 := set_text (join (S_ " ") l') (with_subs l' true t1) in
    with_subs l' true t2.

(** Convert.mensToDuration (convert.py lines 225-269): the loop, which stops at
    the first rhythm letter or space; [None]: still running. *)
Definition mens_letter (c : ascii) : option Q :=
  if Ascii.eqb c "X"%char then Some 8%Q
  else if Ascii.eqb c "L"%char then Some 4%Q
  else if Ascii.eqb c "S"%char then Some 2%Q
  else if Ascii.eqb c "s"%char then Some 1%Q
  else if Ascii.eqb c "M"%char then Some (1 # 2)%Q
  else if Ascii.eqb c "m"%char then Some (1 # 4)%Q
  else if Ascii.eqb c "U"%char then Some (1 # 8)%Q
  else if Ascii.eqb c "u"%char then Some (1 # 16)%Q
  else None.

Fixpoint mens_scan (s : str) (perfect : bool) : Q * bool :=
  match s with
  | [] => (0%Q, perfect)
  | c :: s' =>
      let perfect := if Ascii.eqb c "p"%char then true
                     else if Ascii.eqb c "i"%char then false else perfect in
      match mens_letter c with
      | Some q => (q, perfect)
      | None => if Ascii.eqb c " "%char then (0%Q, perfect) else mens_scan s' perfect
      end
  end.

Definition mensToDuration (s : str) : Q :=
  let (out, perfect) := mens_scan s false in
  ((if perfect then out * 3 / 2 else out) * 4)%Q.

(** Convert.mensToDurationNoDots (convert.py lines 277-311). *)
Fixpoint mens_scan_plain (s : str) : Q :=
  match s with
  | [] => 0%Q
  | c :: s' =>
      match mens_letter c with
      | Some q => q
      | None => if Ascii.eqb c " "%char then 0%Q else mens_scan_plain s'
      end
  end.
Definition mensToDurationNoDots (s : str) : Q := (mens_scan_plain s * 4)%Q.

(** analyzeDuration (lines 725-765) without the visual duration of grace notes;
    [Convert.recipToDuration] with an empty cache and scale 4. *)
Definition analyzeDuration (e : env) (t : tok) : tok :=
  if str_eqb (k_text t) (S_ ".") then with_dur true (Some (-1)%Q) t
  else
    let none := with_dur true (Some (-1)%Q) in
    let (c, t1) := qComment t in if c then none t1 else
    let (i, t2) := qInterpretation t1 in if i then none t2 else
    let (b, t3) := qBarline t2 in if b then none t3 else
    let (h, t4) := qRhythm e t3 in
    if h then
      let (d, t5) := qNonNullData t4 in
      if d then
        let (kern, t6) := qKern e t5 in
        if kern then with_dur true (fst (recipToDuration [] (k_text t6) 4%Q)) t6
        else
          let (rec, t7) := qRecip e t6 in
          if rec then with_dur true (fst (recipToDuration [] (k_text t7) 4%Q)) t7
          else
            let (mens, t8) := qMens e t7 in
            if mens then with_dur true (Some (mensToDuration (k_text t8))) t8 else none t8
      else none t5
    else none t4.

(** The duration getter (lines 827-831). *)
Definition duration (e : env) (t : tok) : option Q * tok :=
  let t1 := if k_analyzed t then t else analyzeDuration e t in (k_dur t1, t1).

(** What a client can do to a token. *)
Inductive op :=
  | SetText (s : str)
  | SetTrack (z : option Z)
  | SetOwner (o : option nat)
  | ReplaceSubtoken (i : Z) (s : str)
  | Ask (p : prop)
  | AskSubtokens
  | AskDuration
  | CopyStructure (tr : option Z).

Definition step (e : env) (t : tok) (o : op) : tok :=
  match o with
  | SetText s => set_text s t
  | SetTrack z => set_track z t
  | SetOwner l => set_owner l t
  | ReplaceSubtoken i s => replaceSubtoken i s t
  | Ask p => snd (query e p t)
  | AskSubtokens => snd (subtokens t)
  | AskDuration => snd (duration e t)
  | CopyStructure tr => copy_structure (with_addr tr None None (new_tok [])) t
  end.

Definition history (e : env) (s : str) (ops : list op) : tok := fold_left (step e) ops (new_tok s).

(** ** Linked layout parameters *)

(** A layout token: its identity, its line, its text. *)
Record ltok := mkL { l_id : nat; l_line : Z; l_text : str }.

(** addLinkedParameterSet (lines 2400-2434): the new list and the index returned.
    [linkedToken == token] compares identities. *)
Fixpoint index_of (id : nat) (l : list ltok) : option nat :=
  match l with
  | [] => None
  | x :: l' => if Nat.eqb (l_id x) id then Some 0 else option_map S (index_of id l')
  end.

Definition last_line (l : list ltok) : option Z := option_map l_line (last (map Some l) None).

Fixpoint insert_before (t : ltok) (l : list ltok) : option (list ltok * nat) :=
  match l with
  | [] => None
  | x :: l' =>
      if (l_line t <? l_line x)%Z then Some (t :: l, 0)
      else option_map (fun r => (x :: fst r, S (snd r))) (insert_before t l')
  end.

Definition addLinkedParameterSet (l : list ltok) (t : ltok) : list ltok * Z :=
  if contains (S_ ":ignore") (l_text t) then (l, (-1)%Z)
  else match index_of (l_id t) l with
       | Some i => (l, Z.of_nat i)
       | None =>
           match last_line l with
           | None => ([t], 0%Z)
           | Some z =>
               if (z <=? l_line t)%Z then (l ++ [t], Z.of_nat (length l))
               else match insert_before t l with
                    | Some (l', i) => (l', Z.of_nat i)
                    | None => (l, (-1)%Z)
                    end
           end
       end.

Definition attach_all (ts : list ltok) : list ltok :=
  fold_left (fun l t => fst (addLinkedParameterSet l t)) ts [].

(** layoutParameter (lines 2828-2889; int(nparam) is modelled for digits, anything else raises).  [local]: what getValueString('LO', category,
    keyName) returns (empty for none) and [local_n] what getValueInt('LO', category,
    'n') returns; [sets]: the linked parameter sets.  [None]: int(nparam) raises. *)
Definition digits_only (s : str) : bool :=
  match s with [] => false | _ => forallb is_digit s end.

(** The inner loop over the parameters of one set (lines 2856-2863): the output,
    the n parameter, and whether it returned at once. *)
Fixpoint scan_params (ps : list (str * str)) (key : str) (neg : bool) (output nparam : str)
  : str * str * bool :=
  match ps with
  | [] => (output, nparam, false)
  | (k, v) :: ps' =>
      let output := if str_eqb k key then v else output in
      if str_eqb k key && neg then (output, nparam, true)
      else scan_params ps' key neg output (if str_eqb k (S_ "n") then v else nparam)
  end.

Fixpoint scan_sets (sets : list paramset) (category key : str) (idx : Z) (output nparam : str)
  : option str :=
  match sets with
  | [] => Some output
  | hps :: rest =>
      if negb (str_eqb (ps_ns1 hps) (S_ "LO")) || negb (str_eqb (ps_ns2 hps) category)
      then scan_sets rest category key idx output nparam
      else
        let neg := (idx <? 0)%Z in
        match scan_params (ps_params hps) key neg [] nparam with
        | (out, np, true) => Some out
        | (out, np, false) =>
            if (match np with [] => true | _ => false end) || neg then
              match out with
              | [] => scan_sets rest category key idx out np
              | _ => Some out
              end
            else if digits_only np then
              if (Z.of_N (parse_N np) =? idx + 1)%Z then Some out
              else scan_sets rest category key idx [] np
            else None
        end
  end.

Definition layoutParameter (local : str) (local_n : Z) (sets : list paramset)
           (category key : str) (idx : Z) : option str :=
  let from_sets := scan_sets sets category key idx [] [] in
  match local with
  | [] => from_sets
  | _ => if (0 <=? idx)%Z then if (local_n =? idx + 1)%Z then Some local else from_sets
         else Some local
  end.

(** ** Track extraction *)

(** A token as getTrackSequence sees it: its track and its classification. *)
Record stok := mkS { s_track : option nat; s_interp : bool; s_manip : bool; s_null : bool;
                     s_comment : bool; s_rest : bool; s_tied : bool; s_text : str }.

(** A line: empty, global (comment; its one token), or with spines. *)
Inductive sline := EmptyLine | GlobalLine (t : stok) | SpinedLine (ts : list stok).

(** humdrumfilebase.py lines 98-113, decoded by lines 1898-1906. *)
Record opts := mkOpts { o_primary : bool; o_nonull : bool; o_noempty : bool; o_nointerp : bool;
                        o_nomanip : bool; o_nocomment : bool; o_noglobal : bool;
                        o_norest : bool; o_notie : bool }.

Definition track_eqb (a b : option nat) : bool :=
  match a, b with
  | Some x, Some y => Nat.eqb x y
  | None, None => true
  | _, _ => false
  end.

(** lines 1935-1951: the loop over the tokens of a line. *)
Fixpoint seq_tokens (o : opts) (track : option nat) (ts : list stok) (found : bool) : list stok :=
  match ts with
  | [] => []
  | t :: ts' =>
      if negb (track_eqb (s_track t) track) then seq_tokens o track ts' found
      else if o_primary o && found then seq_tokens o track ts' found
      else if (o_nointerp o && s_interp t) then seq_tokens o track ts' true
      else if (o_nomanip o && s_manip t) then seq_tokens o track ts' true
      else if (o_nonull o && s_null t) then seq_tokens o track ts' true
      else if (o_nocomment o && s_comment t) then seq_tokens o track ts' true
      else if (o_norest o && s_rest t) then seq_tokens o track ts' true
      else if (o_notie o && s_tied t) then seq_tokens o track ts' true
      else t :: seq_tokens o track ts' true
  end.

Definition line_tokens (l : sline) : list stok :=
  match l with EmptyLine => [] | GlobalLine t => [t] | SpinedLine ts => ts end.

(** lines 1921-1930: the NOEMPTY test. *)
Definition all_null (track : option nat) (ts : list stok) : bool :=
  forallb (fun t => negb (track_eqb (s_track t) track) || s_null t) ts.

Definition seq_spined (o : opts) (track : option nat) (ts : list stok) : list (list stok) :=
  if o_noempty o && all_null track ts then []
  else match seq_tokens o track ts false with [] => [] | l => [l] end.

Definition seq_line (o : opts) (track : option nat) (l : sline) : list (list stok) :=
  match l with
  | EmptyLine => []
  | GlobalLine t => if o_noglobal o then seq_spined o track [t] else [[t]]
  | SpinedLine ts => seq_spined o track ts
  end.

(** getTrackSequence (lines 1887-1959), and getPrimaryTrackSequence (1851-1856);
    [None]: the [0] of an empty row raises. *)
Definition getTrackSequence (o : opts) (track : option nat) (lines : list sline) : list (list stok) :=
  flat_map (seq_line o track) lines.

Definition primary (o : opts) : opts :=
  mkOpts true (o_nonull o) (o_noempty o) (o_nointerp o) (o_nomanip o) (o_nocomment o)
         (o_noglobal o) (o_norest o) (o_notie o).

Fixpoint heads (rows : list (list stok)) : option (list stok) :=
  match rows with
  | [] => Some []
  | [] :: _ => None
  | (t :: _) :: rows' => option_map (cons t) (heads rows')
  end.
Definition getPrimaryTrackSequence (o : opts) (track : option nat) (lines : list sline)
  : option (list stok) := heads (getTrackSequence (primary o) track lines).

(** ** Reference records *)

(** _getKeyAndValue (humdrumline.py lines 40-45). *)
Definition getKeyAndValue (s : str) : str * str :=
  match split1 ":"%char s with
  | (k, None) => (strip k, [])
  | (k, Some v) => (strip k, strip v)
  end.

(** isGlobalReference (humdrumline.py lines 329-347), isUniversalReference
    (355-373).  [':'.split(self.text)] splits the one-character string at the
    line's text, which is longer, so the two tests for blanks look at ":". *)
Definition isGlobalReference (s : str) : bool :=
  (5 <=? length s) && starts_with (S_ "!!!") s && negb (starts_with (S_ "!!!!") s)
  && has ":"%char s && negb (has " "%char (S_ ":")) && negb (has tab (S_ ":")).
Definition isUniversalReference (s : str) : bool :=
  (5 <=? length s) && starts_with (S_ "!!!!") s && negb (starts_with (S_ "!!!!!") s)
  && has ":"%char s && negb (has " "%char (S_ ":")) && negb (has tab (S_ ":")).

(** humdrumline.py lines 392-468; universalReferenceValue returns the key. *)
Definition referenceKey (s : str) : str :=
  if isGlobalReference s then fst (getKeyAndValue (skipn 3 s))
  else if isUniversalReference s then fst (getKeyAndValue (skipn 4 s)) else [].
Definition referenceValue (s : str) : str :=
  if isGlobalReference s then snd (getKeyAndValue (skipn 3 s))
  else if isUniversalReference s then fst (getKeyAndValue (skipn 4 s)) else [].
