(** Model of durations and tremolos in MEI: written (mei/m21objectconvert.py,
    mei/meilayer.py) and read (mei/meireader.py). *)
From Coq Require Import QArith.
From Verif Require Import PyStr.
Local Close Scope Q_scope.

(** music21's duration types; [TOther] stands for all that are not in the table. *)
Inductive dtype :=
| TMaxima | TLonga | TBreve | TWhole | THalf | TQuarter | TEighth | T16th | T32nd | T64th
| T128th | T256th | T512th | T1024th | T2048th | TOther.

(** [_M21_DUR_TYPE_TO_MEI_DUR] (m21objectconvert.py:659-675), with '' for a type
    that is not there. *)
Definition meiDur (t : dtype) : str :=
  match t with
  | TMaxima => S_ "maxima" | TLonga => S_ "long" | TBreve => S_ "breve" | TWhole => S_ "1" | THalf => S_ "2"
  | TQuarter => S_ "4" | TEighth => S_ "8" | T16th => S_ "16" | T32nd => S_ "32" | T64th => S_ "64"
  | T128th => S_ "128" | T256th => S_ "256" | T512th => S_ "512" | T1024th => S_ "1024" | T2048th => S_ "2048"
  | TOther => []
  end.

(** What is read of a [Duration] that is not of a grace note: its type and dots,
    the product of the multipliers of its tuplets (1 if there are none), whether
    it is linked, and its quarter length. *)
Record dur := mkD { d_type : dtype; d_dots : N; d_mult : Q; d_linked : bool; d_ql : Q }.

(** The attributes; '' for one that is left out. *)
Record attrs := mkA { a_dur : str; a_dots : str; a_durges : str; a_dotsges : str }.

Definition is_zero_str (s : str) : bool := str_eqb s (S_ "0") || str_eqb s [].

(** [m21DurationToMeiDurDotsGrace] without grace notes (m21objectconvert.py:678-762).
    [classify] is music21's [Duration(ql)], of which type and dots are taken. *)
Definition writeDur (classify : Q -> dtype * N) (inFTrem : bool) (d : dur) : attrs :=
  let du := meiDur (d_type d) in
  let dots := show_N (d_dots d) in
  let '(durGes, dotsGes) :=
    if d_linked d then ([], [])
    else
      let ges0 := (d_ql d / d_mult d)%Q in
      let ges := if inFTrem then (ges0 * 2)%Q else ges0 in
      let '(gt, gn) := classify ges in
      let dg := if str_eqb (meiDur gt) du then [] else meiDur gt in
      let gd := show_N gn in
      match dg with
      | [] => (dg, if str_eqb gd dots then [] else gd)
      | _ => (dg, if is_zero_str gd && is_zero_str dots then [] else gd)
      end in
  mkA du (if str_eqb dots (S_ "0") then [] else dots) durGes dotsGes.

(** [_DUR_ATTR_DICT] (meireader.py:576-594); a missing attribute is 0. *)
Definition durAttr (s : str) : option Q :=
  let is x := str_eqb s (S_ x) in
  match s with
  | [] => Some 0%Q
  | _ =>
      if is "maxima"%string then Some (32 # 1)%Q
      else if is "long"%string || is "longa"%string then Some (16 # 1)%Q
      else if is "breve"%string || is "brevis"%string then Some (8 # 1)%Q
      else if is "1"%string || is "semibrevis"%string then Some (4 # 1)%Q
      else if is "2"%string || is "minima"%string then Some (2 # 1)%Q
      else if is "4"%string || is "semiminima"%string then Some (1 # 1)%Q
      else if is "8"%string || is "fusa"%string then Some (1 # 2)%Q
      else if is "16"%string || is "semifusa"%string then Some (1 # 4)%Q
      else if is "32"%string then Some (1 # 8)%Q
      else if is "64"%string then Some (1 # 16)%Q
      else if is "128"%string then Some (1 # 32)%Q
      else if is "256"%string then Some (1 # 64)%Q
      else if is "512"%string then Some (1 # 128)%Q
      else if is "1024"%string then Some (1 # 256)%Q
      else if is "2048"%string then Some (1 # 512)%Q
      else None
  end.

(** The length of an undotted note with dots: [makeDuration] on a length from the
    table (m21utilities.py:1157-1188). *)
Definition dotted (base : Q) (n : N) : Q := (base * (2 - / (2 ^ Z.of_N n)))%Q.

(** What is read: written length and dots, whether it is linked, quarter length. *)
Record rdur := mkR { r_base : Q; r_dots : N; r_linked : bool; r_ql : Q }.

(** [durationFromAttributes] (meireader.py:4573-4666), without [dur.ppq] and <dot>
    elements; [dflt] is the default duration.  Dots are strings of digits. *)
Definition readDur (dflt : Q) (a : attrs) : option rdur :=
  match durAttr (a_dur a), durAttr (a_durges a) with
  | Some d0, Some g0 =>
      let n := match a_dots a with [] => 0%N | s => parse_N s end in
      let ng := match a_dotsges a with [] => None | s => Some (parse_N s) end in
      let '(d1, g1) := if Qeq_bool d0 0 then (g0, 0%Q) else (d0, g0) in
      let d2 := if Qeq_bool d1 0 then dflt else d1 in
      let plain := mkR d2 n true (dotted d2 n) in
      let with_ges q := if Qeq_bool q (dotted d2 n) then plain else mkR d2 n false q in
      Some (match Qeq_bool g1 0, ng with
            | true, None => plain
            | false, Some k => with_ges (dotted g1 k)
            | false, None => with_ges (dotted g1 0)
            | true, Some k => with_ges (dotted d2 k)
            end)
  | _, _ => None
  end.

(** Tremolos. *)

(** [_QL_NO_DOTS_TO_NUM_FLAGS] (meilayer.py:336-347) on the type of the note. *)
Definition flags_of_type (t : dtype) : nat :=
  match t with
  | TEighth => 1 | T16th => 2 | T32nd => 3 | T64th => 4 | T128th => 5 | T256th => 6 | T512th => 7
  | T1024th => 8 | T2048th => 9 | _ => 0
  end.
(** [_NUM_MARKS_TO_UNIT_DUR] (meilayer.py:312-322). *)
Definition unitDur (n : nat) : str :=
  match n with
  | 1 => S_ "8" | 2 => S_ "16" | 3 => S_ "32" | 4 => S_ "64" | 5 => S_ "128" | 6 => S_ "256" | 7 => S_ "512"
  | 8 => S_ "1024" | 9 => S_ "2048" | _ => []
  end.
(** [_DUR_TO_NUMBEAMS] (meireader.py:596-607); the other names are never written. *)
Definition numBeams (s : str) : nat :=
  let is x := str_eqb s (S_ x) in
  if is "8"%string then 1 else if is "16"%string then 2 else if is "32"%string then 3 else if is "64"%string then 4
  else if is "128"%string then 5 else if is "256"%string then 6 else if is "512"%string then 7
  else if is "1024"%string then 8 else if is "2048"%string then 9 else 0.
(** [_QL_TO_NUMFLAGS] (meireader.py:609-620) on a quarter length. *)
Definition flags_of_ql (q : Q) : nat :=
  let is x := Qeq_bool q x in
  if is (1 # 2)%Q then 1 else if is (1 # 4)%Q then 2 else if is (1 # 8)%Q then 3 else if is (1 # 16)%Q then 4
  else if is (1 # 32)%Q then 5 else if is (1 # 64)%Q then 6 else if is (1 # 128)%Q then 7
  else if is (1 # 256)%Q then 8 else if is (1 # 512)%Q then 9 else 0.

(** A tremolo on one note: the [unitdur] of <bTrem>, if it is written
    (meilayer.py:349-382), and the number of marks that is read, if the note has
    no [stem.mod] (meireader.py:5992-6030; 0 is no tremolo). *)
Definition writeBTrem (t : dtype) (marks : nat) : option str :=
  match unitDur (marks + flags_of_type t) with [] => None | u => Some u end.
Definition nine_is_eight (n : nat) : nat := if n =? 9 then 8 else n.
Definition readBTrem (u : str) : nat := nine_is_eight (numBeams u).

(** A tremolo between two notes: the [beams] of <fTrem> (meilayer.py:396-430),
    and the number of marks read (meireader.py:6058-6103), [ql] is the length read
    for the first note; with it the length that the two notes get. *)
Definition writeFTrem (t : dtype) (marks : nat) : option N :=
  match unitDur (marks + flags_of_type t) with [] => None | u => Some (N.of_nat (numBeams u)) end.
Definition readFTrem (beams : N) (ql : Q) : nat * Q :=
  let m := nine_is_eight (N.to_nat beams - flags_of_ql ql) in
  (m, if 0 <? m then (ql / 2)%Q else ql).
