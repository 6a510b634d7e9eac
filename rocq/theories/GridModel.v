(** From the slices of the grid to the lines of the exported file:
    converter21/humdrum/gridslice.py, gridside.py and humgrid.py. *)
From Verif Require Import PyStr RecipModel.
From Verif Require MeasureModel.
From Coq Require Import QArith.
Local Close Scope Q_scope.
Import MeasureModel(slicetype, slicetype_eqb, Notes, GraceNotes, Measures, Clefs, Layouts, LocalComments,
  GlobalComments, GlobalLayouts, ReferenceRecords, Invalid, VerseLabels).

(** ** The grid *)

(** gridside.py:31-37 *)
Record side := mkSide { sd_verses : list (option str); sd_harmony : option str; sd_xmlid : option str;
                        sd_dynamics : option str; sd_fb : option str }.
Definition no_side : side := mkSide [] None None None None.
(** gridstaff.py:38-40; a voice without token is [None]. *)
Record staff := mkStaff { st_voices : list (option str); st_side : side }.
(** gridpart.py:33-36 *)
Record part := mkPart { pt_staves : list staff; pt_side : side }.
(** gridslice.py:47-93; the duration is only used for the recip column. *)
Record slice := mkSlice { sl_type : slicetype; sl_dur : Q; sl_parts : list part }.

(** humgrid.py:44-62: what the grid says of its parts, one hundred entries each. *)
Record grid := mkGrid { g_verses : list (list nat); g_xmlids : list bool; g_dynamics : list bool;
                        g_fb : list bool; g_harmony : list bool; g_recip : bool }.
Definition new_grid : grid :=
  mkGrid (repeat [] 100) (repeat false 100) (repeat false 100) (repeat false 100) (repeat false 100) false.

(** humgrid.py:181-186 *)
Definition verseCount (g : grid) (p s : nat) : nat := nth (S s) (nth p (g_verses g) []) 0.
(** humgrid.py:193-259 *)
Definition hasXmlIds (g : grid) (p : nat) : bool := nth p (g_xmlids g) false.
Definition hasDynamics (g : grid) (p : nat) : bool := nth p (g_dynamics g) false.
Definition hasFiguredBass (g : grid) (p : nat) : bool := nth p (g_fb g) false.
Definition hasHarmony (g : grid) (p : nat) : bool := nth p (g_harmony g) false.

(** [l[i] = x] for an index inside the list. *)
Fixpoint set_nth {A} (i : nat) (x : A) (l : list A) : list A :=
  match l, i with
  | [], _ => []
  | _ :: r, O => x :: r
  | y :: r, S k => y :: set_nth k x r
  end.
(** humgrid.py:267-296 *)
Definition setDynamicsPresent (p : nat) (g : grid) : grid :=
  mkGrid (g_verses g) (g_xmlids g) (set_nth p true (g_dynamics g)) (g_fb g) (g_harmony g) (g_recip g).
Definition setHarmonyPresent (p : nat) (g : grid) : grid :=
  mkGrid (g_verses g) (g_xmlids g) (g_dynamics g) (g_fb g) (set_nth p true (g_harmony g)) (g_recip g).
Definition setXmlIdsPresent (p : nat) (g : grid) : grid :=
  mkGrid (g_verses g) (set_nth p true (g_xmlids g)) (g_dynamics g) (g_fb g) (g_harmony g) (g_recip g).
Definition setFiguredBassPresent (p : nat) (g : grid) : grid :=
  mkGrid (g_verses g) (g_xmlids g) (g_dynamics g) (set_nth p true (g_fb g)) (g_harmony g) (g_recip g).
(** [l] made long enough for index [i] by adding zeros. *)
Definition grown (i : nat) (l : list nat) : list nat := l ++ repeat 0 (S i - length l).
(** humgrid.py:328-340 *)
Definition setVerseCount (p s n : nat) (g : grid) : grid :=
  mkGrid (set_nth p (set_nth (S s) n (grown (S s) (nth p (g_verses g) []))) (g_verses g))
    (g_xmlids g) (g_dynamics g) (g_fb g) (g_harmony g) (g_recip g).

(** gridside.py:64-80 *)
Definition setVerse (i : nat) (tok : option str) (sd : side) : side :=
  mkSide (set_nth i tok (sd_verses sd ++ repeat None (S i - length (sd_verses sd))))
    (sd_harmony sd) (sd_xmlid sd) (sd_dynamics sd) (sd_fb sd).
Definition setHarmony (tok : str) (sd : side) : side :=
  mkSide (sd_verses sd) (Some tok) (sd_xmlid sd) (sd_dynamics sd) (sd_fb sd).
Definition setDynamics (tok : str) (sd : side) : side :=
  mkSide (sd_verses sd) (sd_harmony sd) (sd_xmlid sd) (Some tok) (sd_fb sd).

(** ** Types of slices *)

(** gridslice.py:221-227: behind [Measure_], up to [Interpretation_]. *)
Definition isInterpretation (ty : slicetype) : bool :=
  match ty with
  | Notes | GraceNotes | Measures | Layouts | LocalComments
  | GlobalComments | GlobalLayouts | ReferenceRecords | Invalid => false
  | _ => true
  end.
(** gridslice.py:334-338 *)
Definition hasSpines (ty : slicetype) : bool :=
  match ty with GlobalComments | GlobalLayouts | ReferenceRecords | Invalid => false | _ => true end.

(** ** One line *)

Definition or_else (empty : str) (o : option str) : str := match o with Some s => s | None => empty end.

(** The text of the first voice of the first staff of the first part; [None]: an IndexError. *)
Definition first_text (other : str) (ps : list part) : option str :=
  match ps with
  | [] => None
  | p :: _ => match pt_staves p with
              | [] => None
              | s :: _ => match st_voices s with v :: _ => Some (or_else other v) | [] => Some other end
              end
  end.
(** gridslice.py:347-366: the text for empty places. *)
Definition filler (sl : slice) : option str :=
  if slicetype_eqb (sl_type sl) Measures then
    match sl_parts sl with [] => Some (S_ ".") | _ => first_text (S_ "=YYYYYY") (sl_parts sl) end
  else if isInterpretation (sl_type sl) then Some (S_ "*")
  else if slicetype_eqb (sl_type sl) Layouts then Some (S_ "!")
  else if negb (hasSpines (sl_type sl)) then Some (S_ "???")
  else Some (S_ ".").
(** gridslice.py:368-402: the token of the recip column, with the text for empty places. *)
Definition recip_column (sl : slice) (empty : str) : option (option str * str) :=
  match sl_type sl with
  | Notes => Some (Some (createRecipTokenFromDuration (sl_dur sl)), empty)
  | Measures => match first_text (S_ "=XXXXX") (sl_parts sl) with Some t => Some (Some t, t) | None => None end
  | GraceNotes => Some (Some (S_ "q"), S_ ".")
  | ty => if isInterpretation ty then Some (Some (S_ "*"), S_ "*")
          else if hasSpines ty then Some (Some (S_ "55"), S_ "!")
          else Some (None, empty)
  end.

(** gridslice.py:575-606, [transferSidesFromStaff] *)
Definition staff_sides (empty : str) (maxx maxv : nat) (sd : side) : list str :=
  (if Nat.ltb 0 maxx then [or_else empty (sd_xmlid sd)] else [])
  ++ map (or_else empty) (sd_verses sd) ++ repeat empty (maxv - length (sd_verses sd)).
(** gridslice.py:536-573, [transferSidesFromPart] *)
Definition part_sides (empty : str) (maxh maxd maxf : nat) (sd : side) : list str :=
  (if Nat.ltb 0 maxd then [or_else empty (sd_dynamics sd)] else [])
  ++ (if Nat.ltb 0 maxf then [or_else empty (sd_fb sd)] else [])
  ++ (match sd_harmony sd with Some h => [h] | None => [] end)
  ++ repeat empty (maxh - match sd_harmony sd with Some _ => 1 | None => 0 end).
Definition voice_tokens (empty : str) (st : staff) : list str :=
  match st_voices st with [] => [empty] | vs => map (or_else empty) vs end.

Definition indexed {A} (l : list A) : list (nat * A) := combine (seq 0 (length l)) l.

Definition b2n (b : bool) : nat := if b then 1 else 0.
(** gridslice.py:405-436, the parts and staves of a line, last part first. *)
Definition staff_tokens (g : grid) (empty : str) (spined : bool) (p : nat) (x : nat * staff) : list str :=
  let '(s, st) := x in
  if negb spined && negb (Nat.eqb s 0) then []
  else voice_tokens empty st
       ++ (if spined then staff_sides empty (b2n (hasXmlIds g p)) (verseCount g p s) (st_side st) else []).
Definition part_tokens (g : grid) (empty : str) (spined : bool) (x : nat * part) : list str :=
  let '(p, pt) := x in
  if negb spined && negb (Nat.eqb p 0) then []
  else flat_map (staff_tokens g empty spined p) (rev (indexed (pt_staves pt)))
       ++ (if spined then part_sides empty (b2n (hasHarmony g p)) (b2n (hasDynamics g p)) (b2n (hasFiguredBass g p)) (pt_side pt)
           else []).
(** gridslice.py:342-438, [GridSlice.transferTokens]; [None]: an exception. *)
Definition sliceLine (g : grid) (sl : slice) : option (list str) :=
  match filler sl with
  | None => None
  | Some empty0 =>
      match (if g_recip g then recip_column sl empty0 else Some (None, empty0)) with
      | None => None
      | Some (r, empty) =>
          Some (match r with Some t => if hasSpines (sl_type sl) then [t] else [] | None => [] end
                ++ flat_map (part_tokens g empty (hasSpines (sl_type sl))) (rev (indexed (sl_parts sl))))
      end
  end.

(** ** The lines around them *)

(** humgrid.py:2042-2061, 2101-2133, 2167-2184, 2216-2235, 2264-2282: the side columns of a
    staff and of a part, with the texts of that line. *)
Definition side_staff (g : grid) (p s : nat) (xml verse : str) : list str :=
  repeat xml (b2n (hasXmlIds g p)) ++ repeat verse (verseCount g p s).
Definition side_part (g : grid) (p : nat) (dyn fb harm : str) : list str :=
  (if hasDynamics g p then [dyn] else []) ++ (if hasFiguredBass g p then [fb] else []) ++ (if hasHarmony g p then [harm] else []).

Definition with_recip (g : grid) (t : str) (l : list str) : list str := if g_recip g then t :: l else l.

(** humgrid.py:2191-2211, [insertExclusiveInterpretationLine]; [sl] is the first slice of the first measure. *)
Definition exclusiveLine (g : grid) (interp : str) (sl : slice) : list str :=
  with_recip g (S_ "**recip")
    (flat_map (fun x : nat * part => let '(p, pt) := x in
       flat_map (fun y : nat * staff => interp :: side_staff g p (fst y) (S_ "**xmlid") (S_ "**text")) (rev (indexed (pt_staves pt)))
       ++ side_part g p (S_ "**dynam") (S_ "**fb") (S_ "**harte")) (rev (indexed (sl_parts sl)))).
(** humgrid.py:2141-2162, [insertPartIndications] *)
Definition partLine (g : grid) (sl : slice) : list str :=
  with_recip g (S_ "*")
    (flat_map (fun x : nat * part => let '(p, pt) := x in
       let text := S_ "*part" ++ show_N (N.of_nat (S p)) in
       flat_map (fun y : nat * staff => text :: side_staff g p (fst y) text text) (rev (indexed (pt_staves pt)))
       ++ side_part g p text text text) (rev (indexed (sl_parts sl)))).
(** humgrid.py:2067-2098, [insertStaffIndications].  [n]: the number of the last staff of the part. *)
Definition staff_text (n : nat) : str := S_ "*staff" ++ show_N (N.of_nat n).
Fixpoint staves_text (g : grid) (p n : nat) (l : list (nat * staff)) : list str :=
  match l with
  | [] => []
  | y :: r => staff_text n :: side_staff g p (fst y) (staff_text n) (staff_text n) ++ staves_text g p (n - 1) r
  end.
Definition dynamics_text (n k : nat) : str :=
  S_ "*staff" ++ join (S_ "/") (map (fun i => show_N (N.of_nat i)) (seq (S n - k) k)).
Fixpoint parts_text (g : grid) (n : nat) (l : list (nat * part)) : list str :=
  match l with
  | [] => []
  | (p, pt) :: r =>
      let k := length (pt_staves pt) in
      staves_text g p n (rev (indexed (pt_staves pt))) ++ side_part g p (dynamics_text n k) (S_ "*") (S_ "*")
      ++ parts_text g (n - k) r
  end.
Definition staff_total (ps : list part) : nat := fold_right (fun pt n => length (pt_staves pt) + n) 0 ps.
Definition staffLine (g : grid) (sl : slice) : list str :=
  with_recip g (S_ "*") (parts_text g (staff_total (sl_parts sl)) (rev (indexed (sl_parts sl)))).
(** humgrid.py:2240-2259, [insertDataTerminationLine]: parts and staves in the other order. *)
Definition terminationLine (g : grid) (sl : slice) : list str :=
  with_recip g (S_ "*-")
    (flat_map (fun x : nat * part => let '(p, pt) := x in
       flat_map (fun y : nat * staff => S_ "*-" :: side_staff g p (fst y) (S_ "*-") (S_ "*-")) (indexed (pt_staves pt))
       ++ side_part g p (S_ "*-") (S_ "*-") (S_ "*-")) (indexed (sl_parts sl))).

(** ** How the writer fills them *)

(** staffdata.py:50, partdata.py:41-42: what is known of the parts. *)
Record known := mkKnown { k_verses : nat -> nat -> nat; k_harmony : nat -> bool; k_dynamics : nat -> bool }.
Definition nothing_known : known := mkKnown (fun _ _ => 0) (fun _ => false) (fun _ => false).
Definition state := (list slice * known)%type.

Definition on_nth {A} (i : nat) (f : A -> A) (l : list A) : list A :=
  match nth_error l i with Some x => set_nth i (f x) l | None => l end.
Definition on_part (p : nat) (f : part -> part) (sl : slice) : slice := mkSlice (sl_type sl) (sl_dur sl) (on_nth p f (sl_parts sl)).
Definition on_staff_side (p s : nat) (f : side -> side) : slice -> slice :=
  on_part p (fun pt => mkPart (on_nth s (fun st => mkStaff (st_voices st) (f (st_side st))) (pt_staves pt)) (pt_side pt)).
Definition on_part_side (p : nat) (f : side -> side) : slice -> slice :=
  on_part p (fun pt => mkPart (pt_staves pt) (f (pt_side pt))).
Definition get_staff (p s : nat) (sl : slice) : option staff :=
  match nth_error (sl_parts sl) p with Some pt => nth_error (pt_staves pt) s | None => None end.
Definition verses_of (o : option staff) : nat := match o with Some st => length (sd_verses (st_side st)) | None => 0 end.

(** humdrumwriter.py:3298, the verses of a note. *)
Definition put_verses (vs : list str) (sd : side) : side :=
  fold_left (fun sd x => setVerse (fst x) (Some (snd x)) sd) (indexed vs) sd.
(** gridmeasure.py:966-970, 987-989, the labels among them. *)
Definition put_labels (ls : list (option str)) (sd : side) : side :=
  fold_left (fun sd x => match snd x with Some l => setVerse (fst x) (Some l) sd | None => sd end) (indexed ls) sd.

Inductive step :=
(** A slice without side tokens goes in at place [i]. *)
| NewSlice (i : nat) (sl : slice)
(** humdrumwriter.py:2372-2374, 3225-3304: a note with lyrics; the labels go to slice [j] if it
    has none for the staff yet. *)
| Lyrics (i p s : nat) (verses : list str) (labels : option (nat * list (option str)))
(** humdrumwriter.py:1576-1579, 2231 (reports) and 2467, 2927, 3008; gridmeasure.py:1176, 1194,
    1229, 1247 (their layouts, in other slices). *)
| HarmonyAt (i p : nat) (tok : str)
| DynamicsAt (i p : nat) (tok : str).

Definition bare_side (sd : side) : bool :=
  match sd_verses sd, sd_harmony sd, sd_xmlid sd, sd_dynamics sd, sd_fb sd with
  | [], None, None, None, None => true
  | _, _, _, _, _ => false
  end.
Definition bare (sl : slice) : bool :=
  forallb (fun pt => bare_side (pt_side pt) && forallb (fun st => bare_side (st_side st)) (pt_staves pt)) (sl_parts sl).

Definition report_verses (p s n : nat) (k : known) : known :=
  mkKnown (fun p' s' => if Nat.eqb p p' && Nat.eqb s s' then Nat.max (k_verses k p' s') n else k_verses k p' s')
    (k_harmony k) (k_dynamics k).
Definition report_harmony (p : nat) (k : known) : known :=
  mkKnown (k_verses k) (fun p' => Nat.eqb p p' || k_harmony k p') (k_dynamics k).
Definition report_dynamics (p : nat) (k : known) : known :=
  mkKnown (k_verses k) (k_harmony k) (fun p' => Nat.eqb p p' || k_dynamics k p').

(** The effect of a step; a step at a missing slice or staff does nothing here (an exception there). *)
Definition run_step (st : state) (o : step) : state :=
  let '(l, k) := st in
  match o with
  | NewSlice i sl => if bare sl then (firstn i l ++ sl :: skipn i l, k) else st
  | Lyrics i p s vs labels =>
      match nth_error l i with
      | None => st
      | Some sl =>
          match get_staff p s sl with
          | None => st
          | Some _ =>
              let l1 := on_nth i (on_staff_side p s (put_verses vs)) l in
              let l2 := match labels with
                        | Some (j, ls) =>
                            match nth_error l1 j with
                            | Some sj => if Nat.eqb (verses_of (get_staff p s sj)) 0
                                         then on_nth j (on_staff_side p s (put_labels (firstn (length vs) ls))) l1 else l1
                            | None => l1
                            end
                        | None => l1
                        end in
              (l2, report_verses p s (match nth_error l1 i with Some sl1 => verses_of (get_staff p s sl1) | None => 0 end) k)
          end
      end
  | HarmonyAt i p tok => (on_nth i (on_part_side p (setHarmony tok)) l, report_harmony p k)
  | DynamicsAt i p tok => (on_nth i (on_part_side p (setDynamics tok)) l, report_dynamics p k)
  end.

(** humdrumwriter.py:434-448: [counts] are the numbers of staves of the parts. *)
Definition transfer (counts : list nat) (recip : bool) (k : known) : grid :=
  let g0 := mkGrid (g_verses new_grid) (g_xmlids new_grid) (g_dynamics new_grid) (g_fb new_grid) (g_harmony new_grid) recip in
  let g1 := fold_left (fun g x => fold_left (fun g s => setVerseCount (fst x) s (k_verses k (fst x) s) g) (seq 0 (snd x)) g) (indexed counts) g0 in
  let g2 := fold_left (fun g p => if k_harmony k p then setHarmonyPresent p g else g) (seq 0 (length counts)) g1 in
  fold_left (fun g p => if k_dynamics k p then setDynamicsPresent p g else g) (seq 0 (length counts)) g2.
