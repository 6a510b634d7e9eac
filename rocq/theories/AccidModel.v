(** The analysis of printed accidentals in **kern spines. *)
From Coq Require Export String Ascii List NArith ZArith Bool Arith.
Export ListNotations.
From Verif Require Export PyStr PitchModel BarModel.
Open Scope list_scope.

(** A token as the analysis sees it: its track, whether its spine is **kern, its
    text, and for each subtoken whether a layout parameter (A:edit, A:vis, N:acc)
    asks for a visible accidental (converter21/humdrum/humdrumfilecontent.py lines
    1503-1535, token.layoutParameter). *)
Record tok := mkTok { t_track : nat; t_kern : bool; t_text : str; t_layout : nat -> bool }.

(** The lines of a file; [OtherLine]: comments and lines without spines. *)
Inductive aline :=
  | Interpretation (ts : list tok)
  | BarLine (ts : list tok)
  | DataLine (ts : list tok)
  | OtherLine.

(** humdrumfilecontent.py lines 1550-1582, fillKeySignature, as a function of the
    diatonic pitch class (0 = c); later tests overwrite earlier ones. *)
Definition fillKeySignature (text : str) (pc : Z) : Z :=
  let letter := diatonic_letter pc in
  if contains [letter; "-"%char] text then (-1)%Z
  else if contains [letter; "#"%char] text then 1%Z else 0%Z.

(** The loop variables of analyzeKernAccidentals (lines 1090-1135).  The arrays
    indexed by spine start are functions of the track; the arrays of 70 diatonic
    positions are total functions (simplified: a pitch above the ninth octave
    raises IndexError, and index -1 is the last position). [firstInBar] is one
    flag since the whole list is always assigned at once. *)
Record astate := mkA {
  keysigs : nat -> Z -> Z;
  dstates : nat -> Z -> Z;
  gdstates : nat -> Z -> Z;
  firstInBar : bool;
  concurrent : Z -> Z }.

Definition a0 : astate := mkA (fun _ _ => 0%Z) (fun _ _ => 0%Z) (fun _ _ => 0%Z) false (fun _ => 0%Z).

Definition upd1 {A} (f : nat -> A) (k : nat) (v : A) : nat -> A := fun x => if Nat.eqb x k then v else f x.
Definition updz (f : Z -> Z) (k : Z) (v : Z) : Z -> Z := fun x => if Z.eqb x k then v else f x.
Definition upd2 (f : nat -> Z -> Z) (t : nat) (d v : Z) : nat -> Z -> Z := upd1 f t (updz (f t) d v).

(** lines 1584-1587, resetDiatonicStatesWithKeySignature. *)
Definition reset_states (ks : Z -> Z) : Z -> Z := fun d => ks (d mod 7)%Z.

(** lines 1141-1160: key-signature tokens. *)
Definition interp_token (st : astate) (t : tok) : astate :=
  if t_kern t && starts_with (S_ "*k[") (t_text t) then
    let ks := fillKeySignature (t_text t) in
    mkA (upd1 (keysigs st) (t_track t) ks)
        (upd1 (dstates st) (t_track t) (reset_states ks))
        (upd1 (gdstates st) (t_track t) (reset_states ks))
        (firstInBar st) (concurrent st)
  else st.

(** lines 1162-1182: barline tokens; an invisible barline has '-'
    (humdrumtoken.py lines 1276-1285). *)
Definition bar_token (st : astate) (t : tok) : astate :=
  if t_kern t && negb (char_in "-"%char (t_text t)) then
    let ks := keysigs st (t_track t) in
    mkA (keysigs st)
        (upd1 (dstates st) (t_track t) (reset_states ks))
        (upd1 (gdstates st) (t_track t) (reset_states ks))
        true (concurrent st)
  else st.

(** What the analysis records for one note: its staff (track), position, encoded
    alteration, whether it continues or ends a tie, and whether 'visualAccidental'
    is set. *)
Record note := mkNote { n_track : nat; n_pos : Z; n_accid : Z; n_tied : bool; n_visual : bool }.

Definition force (st : astate) (t : nat) (d v : Z) : astate :=
  mkA (keysigs st) (upd2 (dstates st) t d v) (gdstates st) (firstInBar st) (concurrent st).

(** lines 1262-1350: a trill or mordent on the note [interval] above (or below). *)
Definition ornament (st : astate) (t : nat) (b40 interval : Z) : astate :=
  let e := (b40 + interval)%Z in
  let d := base40ToDiatonic e in
  let a := base40ToAccidental e in
  if Z.eqb (dstates st t d) a then st else force st t d (-1000 + a)%Z.

(** [subtok.find(c)] for a present character, and the character at an index. *)
Fixpoint find_char (c : ascii) (s : str) : nat :=
  match s with [] => 0 | x :: s' => if Ascii.eqb c x then 0 else S (find_char c s') end.
Definition char_at (s : str) (i : nat) : option ascii := nth_error s i.
Definition turn_step (c : option ascii) : Z :=
  match c with
  | Some c => if Ascii.eqb c "s" then 5%Z else if Ascii.eqb c "S" then 6%Z else 0%Z
  | None => 0%Z
  end.

(** lines 1352-1460: turns.  [inverted]: '$' gives the lower interval first. *)
Definition turn (st : astate) (t : nat) (b40 : Z) (subtok : str) (inverted : bool) : astate :=
  let loc := find_char (if inverted then "$" else "S")%char subtok in
  let first := turn_step (char_at subtok (loc + 1)) in
  let second := turn_step (char_at subtok (loc + 2)) in
  let lowerInt0 := (- (if inverted then first else second))%Z in
  let upperInt0 := if inverted then second else first in
  let d := base40ToDiatonic b40 in
  let lowerAccid := dstates st t (d - 1)%Z in
  let upperAccid := dstates st t (d + 1)%Z in
  let lowerInt := if Z.eqb lowerInt0 0 then (base7ToBase40 (d - 1) + lowerAccid - b40)%Z else lowerInt0 in
  let upperInt := if Z.eqb upperInt0 0 then (base7ToBase40 (d + 1) + upperAccid - b40)%Z else upperInt0 in
  let uacc := base40ToAccidental (b40 + upperInt)%Z in
  let bacc := base40ToAccidental (b40 + lowerInt)%Z in
  let st1 := if Z.eqb uacc upperAccid then st else force st t (d + 1)%Z uacc in
  if Z.eqb bacc lowerAccid then st1 else force st1 t (d - 1)%Z bacc.

(** lines 1262-1460: at most one ornament, tested in this order. *)
Definition ornaments (st : astate) (t : nat) (b40 : Z) (s : str) : astate :=
  if char_in "t" s then ornament st t b40 5
  else if char_in "T" s then ornament st t b40 6
  else if char_in "M" s then ornament st t b40 6
  else if char_in "m" s then ornament st t b40 5
  else if char_in "W" s then ornament st t b40 (-6)
  else if char_in "w" s then ornament st t b40 (-5)
  else if char_in "$" s then turn st t b40 s true
  else if char_in "S" s then turn st t b40 s false
  else st.

(** lines 1462-1500: whether the accidental is shown, and the new states. *)
Definition decide (st : astate) (t : nat) (d accid : Z) (isGrace : bool) (s : str) : astate * bool :=
  if isGrace && negb (Z.eqb accid (gdstates st t d)) then
    (mkA (keysigs st) (upd2 (dstates st) t d (-1000 + accid)%Z) (upd2 (gdstates st) t d accid)
         (firstInBar st) (concurrent st), true)
  else if negb isGrace &&
          ((negb (Z.eqb (concurrent st d) 0) && Z.eqb (concurrent st d) accid)
           || negb (Z.eqb accid (dstates st t d))) then
    (mkA (keysigs st) (upd2 (dstates st) t d accid) (upd2 (gdstates st) t d accid)
         (firstInBar st) (updz (concurrent st) d accid), true)
  else if Z.eqb accid 0 && char_in "n" s then (st, true)
  else if negb (contains (S_ "XX") s) then
    (st, contains (S_ "#X") s || contains (S_ "-X") s || contains (S_ "nX") s)
  else (st, false).

(** lines 1210-1540: one subtoken.  [chord]: the token has several subtokens;
    [sigs]: the file's editorial-accidental signifiers; [lay]: a layout parameter
    asks for an accidental.  The result lists the note, if there is one. *)
Definition process_subtoken (sigs : list str) (st : astate) (t : nat) (isGrace chord : bool)
    (subtok0 : str) (lay : bool) : astate * list note :=
  let s0 := if chord then replace (S_ "r") (S_ "R") subtok0 else subtok0 in
  let b40 := kernToBase40 s0 in
  let d := kernToBase7 s0 in
  if (d <? 0)%Z then (st, [])
  else
    let accid := kernToAccidentalCount s0 in
    let s := if negb (contains (S_ "yy") s0) && contains (S_ "ny") s0
             then replace (S_ "ny") [] s0 else s0 in
    let tied := char_in "_" s || char_in "]" s in
    let st1 := if tied && negb (Z.eqb accid (keysigs st t (d mod 7)%Z)) && firstInBar st
               then mkA (keysigs st) (upd2 (dstates st) t d (-1000 + accid)%Z)
                        (upd2 (gdstates st) t d (-1000 + accid)%Z) (firstInBar st) (concurrent st)
               else st in
    if tied && negb (contains (S_ "#X") s) && negb (contains (S_ "-X") s) && negb (char_in "n" s)
    then (st1, [mkNote t d accid true false])
    else
      let st2 := ornaments st1 t b40 s in
      let '(st3, shown) := decide st2 t d accid isGrace s in
      let editorial := existsb (fun sig => contains sig s) sigs in
      (st3, [mkNote t d accid tied (shown || editorial || lay)]).

Fixpoint process_subtokens (sigs : list str) (st : astate) (t : nat) (isGrace chord : bool)
    (k : nat) (subs : list str) (lay : nat -> bool) : astate * list note :=
  match subs with
  | [] => (st, [])
  | s :: subs' =>
      let '(st1, n1) := process_subtoken sigs st t isGrace chord s (lay k) in
      let '(st2, n2) := process_subtokens sigs st1 t isGrace chord (S k) subs' lay in
      (st2, n1 ++ n2)
  end.

(** lines 1190-1208: null tokens ('.') and rests are skipped; the concurrent state
    is emptied when the track changes. *)
Fixpoint process_tokens (sigs : list str) (st : astate) (lastTrack : option nat) (ts : list tok)
  : astate * list note :=
  match ts with
  | [] => (st, [])
  | t :: ts' =>
      if negb (t_kern t) || str_eqb (t_text t) (S_ ".") || char_in "r" (t_text t)
      then process_tokens sigs st lastTrack ts'
      else
        let same := match lastTrack with Some l => Nat.eqb l (t_track t) | None => false end in
        let st0 := if same then st
                   else mkA (keysigs st) (dstates st) (gdstates st) (firstInBar st) (fun _ => 0%Z) in
        let subs := split_char " " (t_text t) in
        let '(st1, n1) := process_subtokens sigs st0 (t_track t) (char_in "q" (t_text t))
                            (1 <? length subs) 0 subs (t_layout t) in
        let '(st2, n2) := process_tokens sigs st1 (Some (t_track t)) ts' in
        (st2, n1 ++ n2)
  end.

(** lines 1137-1545: one line, and the whole file; the notes are kept line by line. *)
Definition process_line (sigs : list str) (st : astate) (l : aline) : astate * list note :=
  match l with
  | Interpretation ts => (fold_left interp_token ts st, [])
  | BarLine ts => (fold_left bar_token ts st, [])
  | DataLine ts =>
      let '(st1, ns) := process_tokens sigs
        (mkA (keysigs st) (dstates st) (gdstates st) (firstInBar st) (fun _ => 0%Z)) None ts in
      (mkA (keysigs st1) (dstates st1) (gdstates st1) false (concurrent st1), ns)
  | OtherLine => (st, [])
  end.

Fixpoint analyze (sigs : list str) (st : astate) (ls : list aline) : list (list note) :=
  match ls with
  | [] => []
  | l :: ls' => let '(st1, ns) := process_line sigs st l in ns :: analyze sigs st1 ls'
  end.

Definition analyzeKernAccidentals (sigs : list str) (ls : list aline) : list (list note) :=
  analyze sigs a0 ls.
