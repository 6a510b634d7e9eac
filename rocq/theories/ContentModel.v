(** Several analyses that run over a whole file: octave lines, rhythmic scaling,
    positioned rests, spine colours, pickup measures and repeated text. *)
From Coq Require Export String Ascii List NArith ZArith Bool Arith.
From Coq Require Import QArith.
Export ListNotations.
From Verif Require Export PyStr RecipModel PitchModel ClefModel BarModel.
Local Close Scope Q_scope.
Open Scope list_scope.

(** A token as these analyses see it: track, subtrack, whether its spine is **kern,
    its text and its duration (set by the rhythm analysis). *)
Record ctok := mkC { c_track : nat; c_sub : nat; c_kern : bool; c_text : str; c_dur : Q }.

(** The lines of a file: interpretations, data, barlines, and the rest. *)
Inductive cline :=
  | CInterp (ts : list ctok)
  | CData (ts : list ctok)
  | CBar (ts : list ctok)
  | COther.

(** converter21/humdrum/humdrumtoken.py lines 2277-2286, isNull. *)
Definition is_null (s : str) : bool := str_eqb s (S_ ".") || str_eqb s (S_ "*") || str_eqb s (S_ "!").

Definition set_track {A} (f : nat -> A) (k : nat) (v : A) : nat -> A :=
  fun x => if Nat.eqb x k then v else f x.

(** * Octave lines: humdrumfilecontent.py lines 1595-1648, analyzeOttavas *)
(** The start ([Some (true, shift)]) and stop ([Some (false, shift)]) interpretations. *)
Definition octave_mark (s : str) : option (bool * Z) :=
  if str_eqb s (S_ "*8va") then Some (true, 1%Z)
  else if str_eqb s (S_ "*X8va") then Some (false, 1%Z)
  else if str_eqb s (S_ "*8ba") then Some (true, (-1)%Z)
  else if str_eqb s (S_ "*X8ba") then Some (false, (-1)%Z)
  else if str_eqb s (S_ "*15ma") then Some (true, 2%Z)
  else if str_eqb s (S_ "*X15ma") then Some (false, 2%Z)
  else if str_eqb s (S_ "*15ba") then Some (true, (-2)%Z)
  else if str_eqb s (S_ "*X15ba") then Some (false, (-2)%Z)
  else None.

(** activeOttava and octaveState, lists indexed by track. *)
Record ostate := mkO { o_active : nat -> Z; o_state : nat -> Z }.
Definition ostart : ostate := mkO (fun _ => 0%Z) (fun _ => 0%Z).

(** lines 1606-1633 *)
Definition ottava_interp (st : ostate) (t : ctok) : ostate :=
  if negb (c_kern t) then st
  else match octave_mark (c_text t) with
       | Some (true, v) => mkO (set_track (o_active st) (c_track t) (o_active st (c_track t) + 1)%Z)
                               (set_track (o_state st) (c_track t) v)
       | Some (false, _) => mkO (set_track (o_active st) (c_track t) (o_active st (c_track t) - 1)%Z)
                                (set_track (o_state st) (c_track t) 0%Z)
       | None => st
       end.

(** lines 1634-1648: the value 'auto'/'ottava' set on a token of a data line. *)
Definition ottava_value (st : ostate) (t : ctok) : option Z :=
  if negb (c_kern t) then None
  else if Z.eqb (o_active st (c_track t)) 0 then None
  else if Z.eqb (o_state st (c_track t)) 0 then None
  else if is_null (c_text t) then None
  else Some (o_state st (c_track t)).

Fixpoint ottavas (st : ostate) (ls : list cline) : list (list (option Z)) :=
  match ls with
  | [] => []
  | CInterp ts :: ls' => [] :: ottavas (fold_left ottava_interp ts st) ls'
  | CData ts :: ls' => map (ottava_value st) ts :: ottavas st ls'
  | _ :: ls' => [] :: ottavas st ls'
  end.
Definition analyzeOttavas (ls : list cline) : list (list (option Z)) := ottavas ostart ls.

(** * Rhythmic scaling: lines 1712-1767, analyzeRScale *)
(** [re.search(r'\*rscale:(\d+)/(\d+)', s)] and [re.search(r'\*rscale:(\d+)', s)]:
    the leftmost occurrence that matches. *)
Definition rscale_ratio_here (s : str) : option (N * N) :=
  if starts_with (S_ "*rscale:") s then
    match span is_digit (skipn 8 s) with
    | (c :: g1, "/"%char :: s') =>
        match span is_digit s' with
        | (d :: g2, _) => Some (parse_N (c :: g1), parse_N (d :: g2))
        | _ => None
        end
    | _ => None
    end
  else None.
Definition rscale_whole_here (s : str) : option N :=
  if starts_with (S_ "*rscale:") s then
    match span is_digit (skipn 8 s) with
    | (c :: g1, _) => Some (parse_N (c :: g1))
    | _ => None
    end
  else None.
Fixpoint search_first {A} (f : str -> option A) (s : str) : option A :=
  match f s with
  | Some x => Some x
  | None => match s with [] => None | _ :: s' => search_first f s' end
  end.

(** lines 1726-1738; [None] is ZeroDivisionError. *)
Definition rscale_value (s : str) : option Q :=
  match search_first rscale_ratio_here s with
  | Some (top, bot) => mk_frac top bot
  | None => match search_first rscale_whole_here s with
            | Some top => Some (inject_Z (Z.of_N top))
            | None => Some 1%Q
            end
  end.

(** rscales and numActiveTracks. *)
Record rstate := mkR { r_scale : nat -> Q; r_active : Z }.
Definition rstart : rstate := mkR (fun _ => 1%Q) 0%Z.

(** lines 1718-1748 *)
Definition rscale_interp (st : option rstate) (t : ctok) : option rstate :=
  match st with
  | None => None
  | Some st =>
      if negb (c_kern t) then Some st
      else if negb (starts_with (S_ "*rscale:") (c_text t)) then Some st
      else match rscale_value (c_text t) with
           | None => None
           | Some v =>
               let old := r_scale st (c_track t) in
               if Qeq_bool v 1 then
                 if negb (Qeq_bool old 1)
                 then Some (mkR (set_track (r_scale st) (c_track t) 1%Q) (r_active st - 1)%Z)
                 else Some st
               else Some (mkR (set_track (r_scale st) (c_track t) v)
                              (if Qeq_bool old 1 then r_active st + 1 else r_active st)%Z)
           end
  end.

(** humdrumtoken.py lines 852-878, dotCount and durationNoDots (the float powers of
    two are exact; simplified: OverflowError past 1022 dots). *)
Definition dotCount (s : str) : nat := count_char "."%char (first_subtoken s).
Definition durationNoDots (t : ctok) : Q :=
  match dotCount (c_text t) with
  | 0 => c_dur t
  | n => (c_dur t * (inject_Z (2 ^ Z.of_nat n) / inject_Z (2 ^ (Z.of_nat n + 1) - 1)))%Q
  end.

(** lines 1750-1765: the text set as LO:N:vis on a token of a data line. *)
Definition rscale_vis (st : rstate) (t : ctok) : option str :=
  if Qeq_bool (r_scale st (c_track t)) 1 then None
  else if negb (c_kern t) then None
  else if is_null (c_text t) then None
  else if negb (Qle_bool 0 (c_dur t)) then None
  else Some (durationToRecip (durationNoDots t * r_scale st (c_track t))%Q
             ++ rep "."%char (dotCount (c_text t))).

(** Per line, the values set; [None]: an exception was raised. *)
Fixpoint rscales (st : rstate) (ls : list cline) : option (list (list (option str))) :=
  match ls with
  | [] => Some []
  | CInterp ts :: ls' =>
      match fold_left rscale_interp ts (Some st) with
      | None => None
      | Some st' => match rscales st' ls' with None => None | Some r => Some ([] :: r) end
      end
  | CData ts :: ls' =>
      let here := if Z.eqb (r_active st) 0 then map (fun _ => None) ts
                  else map (rscale_vis st) ts in
      match rscales st ls' with None => None | Some r => Some (here :: r) end
  | _ :: ls' => match rscales st ls' with None => None | Some r => Some ([] :: r) end
  end.
Definition analyzeRScale (ls : list cline) : option (list (list (option str))) := rscales rstart ls.

(** * Positioned rests: lines 990-1060 *)
(** [re.search(r'([A-Ga-g]+)', s)]: the first maximal run of letters a-g. *)
Definition is_pitch_letter (c : ascii) : bool := char_in c (S_ "ABCDEFGabcdefg").
Fixpoint pitch_run (s : str) : option str :=
  match s with
  | [] => None
  | c :: s' => if is_pitch_letter c then Some (fst (span is_pitch_letter s)) else pitch_run s'
  end.

(** lines 1028-1059, _checkRestForVerticalPositioning: the stepShift that is set. *)
Definition stepShift (text : str) (dur : Q) (baseline : Z) : option Z :=
  match pitch_run text with
  | None => None
  | Some pitch =>
      let b7 := kernToBase7 pitch in
      if (b7 <? 0)%Z then None
      else
        let diff := (b7 - baseline + 100)%Z in
        let b7' := if Z.eqb (diff mod 2) 0 then b7
                   else if negb (Qle_bool dur 1) then (b7 - 1)%Z else (b7 + 1)%Z in
        Some (b7' - (baseline + 4))%Z
  end.

(** lines 999-1018; a token is a rest if its text contains 'r' (isKernRest; null
    tokens carry no pitch letter, so nothing is set on them). Simplified: the
    automatic clef values that another analysis may attach are not modelled. *)
Definition clef_interp (bl : nat -> Z) (t : ctok) : nat -> Z :=
  if c_kern t && starts_with (S_ "*clef") (c_text t)
  then set_track bl (c_track t) (kernClefToBaseline (c_text t)) else bl.
Definition rest_value (bl : nat -> Z) (t : ctok) : option Z :=
  if c_kern t && char_in "r"%char (c_text t) then stepShift (c_text t) (c_dur t) (bl (c_track t)) else None.
Fixpoint rests (bl : nat -> Z) (ls : list cline) : list (list (option Z)) :=
  match ls with
  | [] => []
  | CInterp ts :: ls' => [] :: rests (fold_left clef_interp ts bl) ls'
  | CData ts :: ls' => map (rest_value bl) ts :: rests bl ls'
  | _ :: ls' => [] :: rests bl ls'
  end.
Definition analyzeRestPositions (ls : list cline) : list (list (option Z)) :=
  rests (fun _ => kernClefToBaseline (S_ "*clefG2")) ls.

(** m21convert.py lines 993-1010: the pitch written for a rest with this shift under
    a clef whose lowest line is the diatonic number [baseline] (music21 counts one
    higher); [Some []]: nothing is written; [None]: an exception. *)
Definition restPitch (shift baseline : Z) : option str :=
  if Z.eqb shift 0 then Some []
  else
    let lowestLine := (baseline + 1)%Z in
    let midline := (lowestLine + 4)%Z in
    let pitchNum := (midline + shift)%Z in
    base7ToKern (pitchNum - 1)%Z.

(** * Spine colours: lines 1782-1817 *)
Definition MAXCOLORSUBTRACK : nat := 30.
(** _spineColor: a list of references (one per track) into a heap of lists. *)
Record colors := mkColors { refs : list nat; heap : list (list str) }.

Fixpoint set_nth {A} (n : nat) (v : A) (l : list A) : list A :=
  match l, n with
  | [], _ => []
  | _ :: l', 0 => v :: l'
  | x :: l', S n' => x :: set_nth n' v l'
  end.

(** line 1783: [[[''] * MAXCOLORSUBTRACK] * (self.maxTrack + 1)] makes one inner list
    and maxTrack + 1 references to it. *)
Definition colors0 (maxTrack : nat) : colors :=
  mkColors (repeat 0 (maxTrack + 1)) [repeat [] MAXCOLORSUBTRACK].

Definition color_get (c : colors) (track sub : nat) : str :=
  nth sub (nth (nth track (refs c) 0) (heap c) []) [].
(** [self._spineColor[track][sub] = v] *)
Definition color_set (c : colors) (track sub : nat) (v : str) : colors :=
  let r := nth track (refs c) 0 in
  mkColors (refs c) (set_nth r (set_nth sub v (nth r (heap c) [])) (heap c)).

(** lines 1801-1817 *)
Definition setSpineColorFromColorInterpToken (c : colors) (t : ctok) : colors :=
  if starts_with (S_ "*color:") (c_text t) then
    let v := skipn 7 (c_text t) in
    if c_sub t <? MAXCOLORSUBTRACK then
      let c1 := color_set c (c_track t) (c_sub t) v in
      if c_sub t =? 1 then color_set c1 (c_track t) 0 v
      else if c_sub t =? 0
           then fold_left (fun c z => color_set c (c_track t) z v) (seq 1 (MAXCOLORSUBTRACK - 1)) c1
           else c1
    else c
  else c.

(** lines 1784-1795: up to the first data line. *)
Fixpoint spine_colors (c : colors) (ls : list cline) : colors :=
  match ls with
  | [] => c
  | CData _ :: _ => c
  | CInterp ts :: ls' =>
      spine_colors (if existsb (fun t => contains (S_ "*color:") (c_text t)) ts
                    then fold_left setSpineColorFromColorInterpToken ts c else c) ls'
  | _ :: ls' => spine_colors c ls'
  end.
Definition initializeSpineColor (maxTrack : nat) (ls : list cline) : colors :=
  spine_colors (colors0 maxTrack) ls.

(** * Pickup measures: lines 1828-1865 *)
(** humdrumtoken.py lines 1455-1464 *)
Definition isTimeSignature (s : str) : bool :=
  starts_with (S_ "*M") s
  && match nth_error s 2 with Some c => is_digit c | None => false end
  && char_in "/"%char s.

(** convert.py lines 126-142; [None] is ZeroDivisionError. *)
Definition timeSigToDuration (s : str) : option Q :=
  if negb (isTimeSignature s) then Some 0%Q
  else match span is_digit (skipn 2 s) with
       | (c :: g1, "/"%char :: s') =>
           match span is_digit s' with
           | (d :: g2, _) =>
               match mk_frac (parse_N (c :: g1)) (parse_N (d :: g2)) with
               | None => None
               | Some q => Some (q * 4)%Q
               end
           | _ => Some 0%Q
           end
       | _ => Some 0%Q
       end.

(** lines 1829-1850: the barline index (-1 when absent) and the time signature. *)
Fixpoint pickup_scan (i : Z) (ls : list cline) (bar : Z) (tsig : option str) : Z * option str :=
  match ls with
  | [] => (bar, tsig)
  | CBar _ :: ls' => if (0 <? bar)%Z then (bar, tsig) else pickup_scan (i + 1) ls' i tsig
  | CInterp ts :: ls' =>
      pickup_scan (i + 1) ls' bar
        (match tsig with
         | Some s => Some s
         | None => option_map c_text (find (fun t => isTimeSignature (c_text t)) ts)
         end)
  | _ :: ls' => pickup_scan (i + 1) ls' bar tsig
  end.

(** [durs]: the lines' durationFromStart.  [None]: an exception. *)
Definition hasPickup (ls : list cline) (durs : Z -> Q) : option Z :=
  match pickup_scan 0 ls (-1) None with
  | (_, None) => Some 0%Z
  | (bar, Some tsig) =>
      if (bar <? 0)%Z then Some 0%Z
      else match timeSigToDuration tsig with
           | None => None
           | Some tdur => if Qeq_bool (durs bar) tdur then Some 0%Z else Some bar
           end
  end.

(** * Repeated text: lines 1662-1706, analyzeTextRepetition *)
(** A token of one text spine, followed through nextToken0. *)
Inductive ttok :=
  | TInterp (s : str)
  | TData (s : str)
  | TOther (s : str).
Definition t_is_null (t : ttok) : bool :=
  match t with TInterp s | TData s | TOther s => is_null s end.
Definition ij_open (s : str) : bool := str_eqb s (S_ "*ij") || str_eqb s (S_ "*edit") || str_eqb s (S_ "*italic").
Definition ij_close (s : str) : bool := str_eqb s (S_ "*Xij") || str_eqb s (S_ "*Xedit") || str_eqb s (S_ "*Xitalic").

Inductive mark := Ij | IjBegin | IjEnd.
(** ijstate, startij, lastIJToken (its index), and the marks set so far. *)
Record ijst := mkIJ { ij_on : bool; ij_start : bool; ij_last : option nat; ij_marks : list (nat * mark) }.

Definition ij_step (st : ijst) (i : nat) (t : ttok) : ijst :=
  if t_is_null t then st
  else match t with
       | TInterp s =>
           if ij_open s then mkIJ true true (ij_last st) (ij_marks st)
           else if ij_close s then
             match ij_last st with
             | Some l => mkIJ false false None (ij_marks st ++ [(l, IjEnd)])
             | None => mkIJ false false None (ij_marks st)
             end
           else st
       | TData _ =>
           if ij_on st
           then mkIJ true false (Some i)
                     (ij_marks st ++ (i, Ij) :: (if ij_start st then [(i, IjBegin)] else []))
           else st
       | TOther _ => st
       end.
Fixpoint ij_run (st : ijst) (i : nat) (ts : list ttok) : ijst :=
  match ts with [] => st | t :: ts' => ij_run (ij_step st i t) (S i) ts' end.
Definition analyzeTextRepetition (ts : list ttok) : list (nat * mark) :=
  ij_marks (ij_run (mkIJ false false None []) 0 ts).
