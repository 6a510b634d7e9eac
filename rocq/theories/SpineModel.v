(** Models of the spine analysis: humdrumfilebase.py (analyzeSpines,
    adjustSpines, getMergedSpineInfo, analyzeLinks, stitchLinesTogether),
    humdrumtoken.py (manipulator tests, makeForwardLink), humdrumline.py
    (line tests, analyzeTracks) and humaddress.py.

    Everything here is the strict mode [acceptSyntaxErrors = False], the default
    of [HumdrumFileBase.__init__] (humdrumfilebase.py:118): the branches that
    repair a file instead of rejecting it are not modelled. *)
From Verif Require Import PyStr LayoutModel TextModel.

(** ** Tokens and lines *)

(** The manipulator tests (humdrumtoken.py:2187-2267). *)
Inductive tkind := KSplit | KMerge | KAdd | KExchange | KTerminate | KExclusive | KPlain.

Definition isExclusiveInterpretation (t : str) : bool := starts_with (S_ "**") t.

Definition kind (t : str) : tkind :=
  if str_eqb t (S_ "*^") then KSplit
  else if str_eqb t (S_ "*v") then KMerge
  else if str_eqb t (S_ "*+") then KAdd
  else if str_eqb t (S_ "*x") then KExchange
  else if str_eqb t (S_ "*-") then KTerminate
  else if isExclusiveInterpretation t then KExclusive
  else KPlain.

Definition isMerge (t : str) : bool := match kind t with KMerge => true | _ => false end.
Definition isExchange (t : str) : bool := match kind t with KExchange => true | _ => false end.
(** [HumdrumToken.isManipulator] (humdrumtoken.py:777-791). *)
Definition isManipulatorToken (t : str) : bool := match kind t with KPlain => false | _ => true end.

(** [HumdrumLine.isGlobal] (humdrumline.py:834-835, 301-302, 863). *)
Definition isGlobalLine (text : str) : bool :=
  match text with [] => true | _ => starts_with (S_ "!!") text end.
Definition hasSpines (text : str) : bool := negb (isGlobalLine text).
(** [HumdrumLine.isInterpretation] (humdrumline.py:513-514). *)
Definition isInterpretationLine (text : str) : bool := starts_with (S_ "*") text.
(** The token texts of a line (createTokensFromLine, TextModel.v). *)
Definition tokens (text : str) : list str := map fst (createTokensFromLine text).
(** [HumdrumLine.isExclusiveInterpretation] (humdrumline.py:483-487). *)
Definition isExclusiveLine (text : str) : bool := existsb isExclusiveInterpretation (tokens text).
(** [HumdrumLine.isManipulator] (humdrumline.py:845-850). *)
Definition isManipulatorLine (text : str) : bool := existsb isManipulatorToken (tokens text).

(** ** Merged labels *)

(** [s[:-1]] and [s[1:-2]]. *)
Definition butlast (s : str) : str := firstn (length s - 1) s.
Definition strip_label (s : str) : str := skipn 1 (firstn (length s - 2) s).

(** One of the two passes of the simplification loop
    (humdrumfilebase.py:395-399, 406-410): [x] is [newInfo[i-1]], the rest starts
    at [newInfo[i]].  Gives the list after the pass and [simplifiedSomething]. *)
Fixpoint merge_pass (x : str) (l : list str) : list str * bool :=
  match l with
  | [] => ([x], false)
  | y :: l' =>
      if str_eqb (butlast x) (butlast y) then
        let (r, _) := merge_pass (strip_label y) l' in ([] :: r, true)
      else
        let (r, b) := merge_pass y l' in (x :: r, b)
  end.
Definition merge_pass_list (l : list str) : list str * bool :=
  match l with [] => ([], false) | x :: l' => merge_pass x l' end.
Definition nonempty (s : str) : bool := match s with [] => false | _ => true end.

(** The [while] loop (humdrumfilebase.py:393-421); [fuel] bounds the iterations,
    each of which but the last shortens the list. *)
Fixpoint merge_loop (fuel : nat) (l : list str) : list str :=
  match fuel with
  | O => l
  | S f =>
      if 1 <? length l then
        let (l1, b1) := merge_pass_list l in
        let (l2, b2) := merge_pass_list (filter nonempty l1) in
        let l3 := filter nonempty l2 in
        if b1 || b2 then merge_loop f l3 else l3
      else l
  end.

(** [HumdrumFileBase.getMergedSpineInfo] (humdrumfilebase.py:364-432).  [None]:
    [newInfo[0]] raises IndexError. *)
Definition getMergedSpineInfo (info : list str) (start extra : nat) : option str :=
  if extra <? 1 then Some (nth start info [])
  else if extra =? 1 then
    let x := nth start info [] in
    let y := nth (S start) info [] in
    if str_eqb (butlast x) (butlast y) then Some (strip_label x)
    else Some (x ++ S_ " " ++ y)
  else
    let l := firstn (S extra) (skipn start info) in
    match merge_loop (S (length l)) l with
    | [] => None
    | x :: l' => Some (fold_left (fun out y => out ++ S_ " " ++ y) l' x)
    end.

(** ** Spine analysis *)

(** A token is referred to by the index of its line and of its field. *)
Definition tokref := (nat * nat)%type.

(** [_trackStarts], [_trackEnds]. *)
Record tracks := mkTracks { trackStarts : list (option tokref); trackEnds : list (list tokref) }.

Definition maxTrack (tr : tracks) : nat := length (trackStarts tr) - 1.

(** [len(trackStarts) > 1 and trackStarts[-1] is None]. *)
Definition last_start_pending (tr : tracks) : bool :=
  (1 <? length (trackStarts tr)) &&
  match last (trackStarts tr) None with None => true | Some _ => false end.

(** [HumdrumFileBase.addToTrackStarts] (humdrumfilebase.py:1149-1158). *)
Definition addToTrackStarts (t : option tokref) (tr : tracks) : tracks :=
  match t with
  | None => mkTracks (trackStarts tr ++ [None]) (trackEnds tr ++ [[]])
  | Some _ =>
      if last_start_pending tr
      then mkTracks (removelast (trackStarts tr) ++ [t]) (trackEnds tr)
      else mkTracks (trackStarts tr ++ [t]) (trackEnds tr ++ [[]])
  end.

(** [trackEnds[len(trackStarts) - 1].append(token)] (humdrumfilebase.py:1257). *)
Fixpoint append_at (n : nat) (t : tokref) (l : list (list tokref)) : list (list tokref) :=
  match l, n with
  | [], _ => []
  | x :: l', O => (x ++ [t]) :: l'
  | x :: l', S n' => x :: append_at n' t l'
  end.
Definition addTrackEnd (t : tokref) (tr : tracks) : tracks :=
  mkTracks (trackStarts tr) (append_at (length (trackStarts tr) - 1) t (trackEnds tr)).

Record adj := mkAdj { a_skip : bool; a_merge : nat; a_type : list str; a_info : list str; a_tracks : tracks }.

(** The branch on one token (humdrumfilebase.py:1222-1276). [nxt] is [line[i+1]].
    Indexing [dataType] and [spineInfo] is total here: [adjustSpines] is called
    with lists as long as the line (humdrumfilebase.py:1041). *)
Definition adjust_token (ln : nat) (dt si : list str) (i : nat) (t : str) (nxt : option str) (s : adj) : option adj :=
  let d := nth i dt [] in
  let f := nth i si [] in
  match kind t with
  | KSplit => Some (mkAdj false (a_merge s) (a_type s ++ [d; d])
                      (a_info s ++ [S_ "(" ++ f ++ S_ ")a"; S_ "(" ++ f ++ S_ ")b"]) (a_tracks s))
  | KMerge => Some (mkAdj false 1 (a_type s) (a_info s) (a_tracks s))
  | KAdd =>
      let tr := addToTrackStarts None (a_tracks s) in
      Some (mkAdj false (a_merge s) (a_type s ++ [d; []])
              (a_info s ++ [f; show_N (N.of_nat (maxTrack tr))]) tr)
  | KExchange =>
      match nxt with
      | None => None
      | Some t' =>
          if isExchange t' then
            Some (mkAdj true (a_merge s) (a_type s ++ [nth (S i) dt []; d])
                    (a_info s ++ [nth (S i) si []; f]) (a_tracks s))
          else None
      end
  | KTerminate => Some (mkAdj false (a_merge s) (a_type s) (a_info s) (addTrackEnd (ln, i) (a_tracks s)))
  | KExclusive =>
      if last_start_pending (a_tracks s) then
        Some (mkAdj false (a_merge s) (a_type s ++ [t]) (a_info s ++ [f])
                (addToTrackStarts (Some (ln, i)) (a_tracks s)))
      else None
  | KPlain => Some (mkAdj false (a_merge s) (a_type s ++ [d]) (a_info s ++ [f]) (a_tracks s))
  end.

(** The loop of [HumdrumFileBase.adjustSpines] (humdrumfilebase.py:1184-1276):
    [toks] are the tokens from field [i] on; field [i] is the last of the line
    when nothing follows it.  [None]: parse error (or IndexError in the merge). *)
Fixpoint adjust_loop (ln : nat) (dt si : list str) (toks : list str) (i : nat) (s : adj) : option adj :=
  match toks with
  | [] => Some s
  | t :: rest =>
      let last := match rest with [] => true | _ => false end in
      if a_skip s then adjust_loop ln dt si rest (S i) (mkAdj false (a_merge s) (a_type s) (a_info s) (a_tracks s))
      else
        let inrun := (0 <? a_merge s) && isMerge t in
        let mc := if inrun then S (a_merge s) else a_merge s in
        if inrun && negb last then
          adjust_loop ln dt si rest (S i) (mkAdj false mc (a_type s) (a_info s) (a_tracks s))
        else if (0 <? mc) && (negb (isMerge t) || last) then
          if mc =? 1 then None
          else
            let start := if isMerge t then S i - mc else i - mc in
            match getMergedSpineInfo si start (mc - 1) with
            | None => None
            | Some lab =>
                let s' := mkAdj false 0 (a_type s ++ [nth start dt []]) (a_info s ++ [lab]) (a_tracks s) in
                if isMerge t then adjust_loop ln dt si rest (S i) s'
                else match adjust_token ln dt si i t (hd_error rest) s' with
                     | None => None
                     | Some s'' => adjust_loop ln dt si rest (S i) s''
                     end
            end
        else match adjust_token ln dt si i t (hd_error rest) (mkAdj false mc (a_type s) (a_info s) (a_tracks s)) with
             | None => None
             | Some s'' => adjust_loop ln dt si rest (S i) s''
             end
  end.

(** The state of [analyzeSpines] between lines. *)
Record sstate := mkS { s_type : list str; s_info : list str; s_tracks : tracks }.

(** [HumdrumFileBase.adjustSpines] (humdrumfilebase.py:1165-1280). *)
Definition adjustSpines (ln : nat) (toks : list str) (st : sstate) : option sstate :=
  match adjust_loop ln (s_type st) (s_info st) toks 0 (mkAdj false 0 [] [] (s_tracks st)) with
  | None => None
  | Some s => Some (mkS (a_type s) (a_info s) (a_tracks s))
  end.

(** One spined line after the first exclusive interpretation
    (humdrumfilebase.py:1041-1052 and 1115-1123). *)
Definition spine_line (ln : nat) (toks : list str) (st : sstate) : option sstate :=
  if negb (length (s_type st) =? length toks) then None
  else if existsb isManipulatorToken toks then adjustSpines ln toks st
  else Some st.

(** The lines after the first exclusive interpretation; gives, for each spined
    line, the spine labels its tokens are given ([token.spineInfo = sinfo[j]]),
    and the final state. *)
Fixpoint spine_lines (ln : nat) (lines : list str) (st : sstate) : option (list (list str) * sstate) :=
  match lines with
  | [] => Some ([], st)
  | l :: ls =>
      if isGlobalLine l then spine_lines (S ln) ls st
      else match spine_line ln (tokens l) st with
           | None => None
           | Some st' =>
               match spine_lines (S ln) ls st' with
               | None => None
               | Some (infos, fin) => Some (s_info st :: infos, fin)
               end
           end
  end.

(** The first exclusive interpretation line (humdrumfilebase.py:1028-1039). *)
Fixpoint init_tracks (ln j : nat) (toks : list str) (tr : tracks) : tracks :=
  match toks with
  | [] => tr
  | _ :: toks' => init_tracks ln (S j) toks' (addToTrackStarts (Some (ln, j)) tr)
  end.
Definition init_info (toks : list str) : list str :=
  map (fun j => show_N (N.of_nat (S j))) (seq 0 (length toks)).
Definition init_state (ln : nat) (toks : list str) : sstate :=
  mkS toks (init_info toks) (init_tracks ln 0 toks (mkTracks [None] [[]])).

(** [HumdrumFileBase.analyzeSpines] (humdrumfilebase.py:990-1133). *)
Fixpoint analyzeSpines_from (ln : nat) (lines : list str) : option (list (list str) * sstate) :=
  match lines with
  | [] => None
  | l :: ls =>
      if isGlobalLine l then analyzeSpines_from (S ln) ls
      else if isExclusiveLine l then
        let st := init_state ln (tokens l) in
        match spine_lines (S ln) ls st with
        | None => None
        | Some (infos, fin) => Some (s_info st :: infos, fin)
        end
      else None
  end.
Definition analyzeSpines (lines : list str) : option (list (list str) * sstate) := analyzeSpines_from 0 lines.

(** ** Links *)

(** What one call of stitchLinesTogether can do: return with the links made so
    far ([StitchOk]), report a parse error, or raise 'Strange error 5'. *)
Inductive stitch :=
| StitchOk (links : list (nat * nat))
| StitchError
| StitchRaise.

Record stt := mkSt { st_idx : nat; st_skip : bool; st_merge : nat; st_links : list (nat * nat) }.

Definition has (next : list str) (j : nat) : bool := j <? length next.
Definition link_if (b : bool) (l : nat * nat) (ls : list (nat * nat)) := if b then ls ++ [l] else ls.

Inductive outcome (A : Type) := Fine (a : A) | ParseError | Raised.
Arguments Fine {A} _. Arguments ParseError {A}. Arguments Raised {A}.

(** The branch on one token (humdrumfilebase.py:863-947); a link (i, j) is
    [prevLine[i].makeForwardLink(nextLine[j])]. *)
Definition stitch_token (next : list str) (i : nat) (t : str) (nxt : option str) (s : stt) : outcome stt :=
  let j := st_idx s in
  match kind t with
  | KPlain | KExclusive =>
      if has next j then Fine (mkSt (S j) false (st_merge s) (st_links s ++ [(i, j)]))
      else Fine (mkSt j false (st_merge s) (st_links s))
  | KSplit =>
      let '(j1, l1) := if has next j then (S j, st_links s ++ [(i, j)]) else (j, st_links s) in
      let '(j2, l2) := if has next j1 then (S j1, l1 ++ [(i, j1)]) else (j1, l1) in
      Fine (mkSt j2 false (st_merge s) l2)
  | KMerge =>
      if has next j then Fine (mkSt j false 1 (st_links s ++ [(i, j)])) else Raised
  | KExchange =>
      match nxt with
      | None => ParseError
      | Some t' =>
          if isExchange t' then
            Fine (mkSt (S (S j)) true (st_merge s)
                    (link_if (has next (S j)) (i, S j) (link_if (has next j) (S i, j) (st_links s))))
          else ParseError
      end
  | KTerminate => Fine (mkSt j false (st_merge s) (st_links s))
  | KAdd =>
      match nth_error next (S j) with
      | None => ParseError
      | Some e =>
          if isExclusiveInterpretation e then
            if has next j then Fine (mkSt (S (S j)) false (st_merge s) (st_links s ++ [(i, j)]))
            else Fine (mkSt (S j) false (st_merge s) (st_links s))
          else ParseError
      end
  end.

(** The loop of stitchLinesTogether (humdrumfilebase.py:813-950). *)
Fixpoint stitch_loop (next : list str) (toks : list str) (i : nat) (s : stt) : outcome stt :=
  match toks with
  | [] => Fine s
  | t :: rest =>
      let last := match rest with [] => true | _ => false end in
      if st_skip s then stitch_loop next rest (S i) (mkSt (st_idx s) false (st_merge s) (st_links s))
      else
        let inrun := negb (st_merge s =? 0) && isMerge t in
        let s1 := if inrun
                  then mkSt (st_idx s) false (S (st_merge s)) (link_if (has next (st_idx s)) (i, st_idx s) (st_links s))
                  else s in
        if inrun && negb last then stitch_loop next rest (S i) s1
        else if negb (st_merge s1 =? 0) && (negb (isMerge t) || last) then
          if st_merge s1 =? 1 then ParseError
          else
            let s2 := mkSt (S (st_idx s1)) false 0 (st_links s1) in
            if isMerge t then stitch_loop next rest (S i) s2
            else match stitch_token next i t (hd_error rest) s2 with
                 | Fine s3 => stitch_loop next rest (S i) s3
                 | ParseError => ParseError
                 | Raised => Raised
                 end
        else match stitch_token next i t (hd_error rest) s1 with
             | Fine s3 => stitch_loop next rest (S i) s3
             | ParseError => ParseError
             | Raised => Raised
             end
  end.

(** [HumdrumFileBase.stitchLinesTogether] (humdrumfilebase.py:759-982); the
    'Strange error' messages that are only printed are not represented. *)
Definition stitchLinesTogether (prev next : str) : stitch :=
  let p := tokens prev in
  let n := tokens next in
  if negb (isInterpretationLine prev) && negb (isInterpretationLine next) then
    if negb (length p =? length n) then StitchError
    else StitchOk (map (fun i => (i, i)) (seq 0 (length p)))
  else
    match stitch_loop n p 0 (mkSt 0 false 0 []) with
    | Fine s => if st_idx s =? length n then StitchOk (st_links s) else StitchError
    | ParseError => StitchError
    | Raised => StitchRaise
    end.

(** The token graph: [nextTokens] and [previousTokens] of every token. *)
Record graph := mkGraph { nextTokens : tokref -> list tokref; previousTokens : tokref -> list tokref }.
Definition empty_graph : graph := mkGraph (fun _ => []) (fun _ => []).
Definition ref_eqb (a b : tokref) : bool := (fst a =? fst b) && (snd a =? snd b).

(** [HumdrumToken.makeForwardLink] (humdrumtoken.py:2490-2494). *)
Definition makeForwardLink (a b : tokref) (g : graph) : graph :=
  mkGraph (fun x => if ref_eqb x a then nextTokens g x ++ [b] else nextTokens g x)
          (fun x => if ref_eqb x b then previousTokens g x ++ [a] else previousTokens g x).

Definition add_links (pl nl : nat) (links : list (nat * nat)) (g : graph) : graph :=
  fold_left (fun g l => makeForwardLink (pl, fst l) (nl, snd l) g) links g.

(** [HumdrumFileBase.analyzeLinks] (humdrumfilebase.py:716-728): [prev] is the
    last spined line seen, with its index. *)
Fixpoint analyzeLinks_from (ln : nat) (prev : option (nat * str)) (lines : list str) (g : graph) : outcome graph :=
  match lines with
  | [] => Fine g
  | l :: ls =>
      if isGlobalLine l then analyzeLinks_from (S ln) prev ls g
      else match prev with
           | None => analyzeLinks_from (S ln) (Some (ln, l)) ls g
           | Some (pl, p) =>
               match stitchLinesTogether p l with
               | StitchOk links => analyzeLinks_from (S ln) (Some (ln, l)) ls (add_links pl ln links g)
               | StitchError => ParseError
               | StitchRaise => Raised
               end
           end
  end.
Definition analyzeLinks (lines : list str) : outcome graph := analyzeLinks_from 0 None lines empty_graph.

(** ** Tracks *)

(** The part of [HumAddress] that analyzeTracks touches (humaddress.py:18-24). *)
Record address := mkAddr { trackNum : option N; a_subTrack : Z; subTrackCount : N }.
Definition new_address : address := mkAddr None (-1)%Z 0.

(** [HumAddress.subTrack], the getter (humaddress.py:100-104). *)
Definition subTrack (a : address) : Z := if (subTrackCount a =? 1)%N then 0%Z else a_subTrack a.

(** The track number in a label: opening parentheses, then the longest run of digits
    (humdrumline.py:1036-1042). *)
Definition label_track (label : str) : N :=
  let (_, s) := span (Ascii.eqb "("%char) label in
  let (ds, _) := span is_digit s in
  match ds with [] => 0%N | _ => parse_N ds end.

(** [HumAddress.track] and [HumAddress.subTrack], the setters
    (humaddress.py:62-70, 106-111); [None]: HumdrumSyntaxError. *)
Definition set_track (n : N) (a : address) : option address :=
  if (1000 <? n)%N then None else Some (mkAddr (Some n) (a_subTrack a) (subTrackCount a)).
Definition set_subTrack (n : nat) (a : address) : option address :=
  if (1000 <? n) then None else Some (mkAddr (trackNum a) (Z.of_nat n) (subTrackCount a)).

Fixpoint mapM {A B} (f : A -> option B) (l : list A) : option (list B) :=
  match l with
  | [] => Some []
  | x :: l' => match f x, mapM f l' with Some y, Some ys => Some (y :: ys) | _, _ => None end
  end.

(** [counts[n] += 1] on an array of numbers. *)
Fixpoint incr_at (n : nat) (l : list nat) : list nat :=
  match l, n with
  | [], _ => []
  | x :: l', O => S x :: l'
  | x :: l', S n' => x :: incr_at n' l'
  end.

(** The last loop of analyzeTracks (humdrumline.py:1054-1060). *)
Fixpoint assign_subtracks (subTracks curr : list nat) (l : list address) : option (list address) :=
  match l with
  | [] => Some []
  | a :: l' =>
      match trackNum a with
      | Some n =>
          let n := N.to_nat n in
          if 1 <? nth n subTracks 0 then
            let curr' := incr_at n curr in
            match set_subTrack (nth n curr' 0) a, assign_subtracks subTracks curr' l' with
            | Some a', Some r => Some (a' :: r) | _, _ => None end
          else
            match set_subTrack 0 a, assign_subtracks subTracks curr l' with
            | Some a', Some r => Some (a' :: r) | _, _ => None end
      | None =>
          match set_subTrack 0 a, assign_subtracks subTracks curr l' with
          | Some a', Some r => Some (a' :: r) | _, _ => None end
      end
  end.

(** [HumdrumLine.analyzeTracks] (humdrumline.py:1028-1062) on a spined line whose
    tokens carry the given labels.  [None]: more than 1000 tracks or sub-tracks. *)
Definition analyzeTracks (labels : list str) : option (list address) :=
  match mapM (fun lab => set_track (label_track lab) new_address) labels with
  | None => None
  | Some addrs =>
      let maxT := fold_left Nat.max (map (fun lab => N.to_nat (label_track lab)) labels) 0 in
      let zeros := repeat 0 (S maxT) in
      let subTracks := fold_left (fun c a => match trackNum a with
                                             | Some n => incr_at (N.to_nat n) c
                                             | None => c end) addrs zeros in
      assign_subtracks subTracks zeros addrs
  end.

(** The base analysis of a text (humdrumfilebase.py:569-586), as far as
    modelled: accepted when the spines, links and tracks analyses all are. *)
Definition accepted (lines : list str) : Prop :=
  exists infos fin g, analyzeSpines lines = Some (infos, fin) /\ analyzeLinks lines = Fine g /\
    Forall (fun labels => analyzeTracks labels <> None) infos.
