(** Beams that are read as tremolos (Humdrum, after the tandem interpretation for
    tremolos): which notes of a beam are replaced by a note with slashes.  The logarithms
    are exact here; in the code they are floating point numbers. *)
From Coq Require Import List Arith NArith ZArith QArith Qround Lia Bool.
Import ListNotations.
Local Close Scope Q_scope.

(** A note or chord of the beam: its duration in quarters, its pitches, and which ties its
    token has: a start or an end of a tie, and a continuation. *)
Record bnote := BNote { b_dur : Q; b_pitches : list Z; b_tie : bool; b_cont : bool }.
(** What is in a layer: notes, and rests with their durations; whether a beam ends there. *)
Inductive bitem := BN (n : bnote) | BR (d : Q).

(** humdrumfile.py:5274-5292: the notes up to the end of the beam.  (The caller takes the
    items of the beam, so the end is the end of the list here.) *)
Definition beam_notes (l : list bitem) : list bnote :=
  flat_map (fun i => match i with BN n => [n] | BR _ => [] end) l.

(** What is noted on a token: nothing; start of a tremolo with the duration it looks like
    and the number of slashes; not printed; start of a tremolo of two notes with the
    duration both look like and the number of beams; its second note. *)
Inductive tmark := Plain | Trem (v : Q) (slashes : Z) | Hidden | Trem2 (v : Q) (beams : Z) | Aux (v : Q).

(** [int(math.log(x) / math.log(2))]: towards zero. *)
Definition tlog2 (x : Q) : Z := if Qle_bool 1 x then Z.log2 (Qfloor x) else (- Z.log2 (Qfloor (1 / x)))%Z.
Definition q_of (n : nat) : Q := inject_Z (Z.of_nat n).

Fixpoint pitches_eqb (a b : list Z) : bool :=
  match a, b with
  | [], [] => true
  | x :: a', y :: b' => Z.eqb x y && pitches_eqb a' b'
  | _, _ => false
  end.

(** 5330-5346: nextSame; the last place is always true. *)
Fixpoint next_same (l : list bnote) : list bool :=
  match l with
  | [] => []
  | a :: l' => match l' with [] => [true] | b :: _ => pitches_eqb (b_pitches b) (b_pitches a) :: next_same l' end
  end.

(** 5378-5393: whether each change of pitch lies between two repetitions. *)
Definition internal (same : list bool) : bool :=
  forallb (fun i => nth i same true || (nth (i - 1) same true && nth (i + 1) same true)) (seq 1 (List.length same - 2))
  && negb ((List.length same =? 2) && negb (nth 0 same true) && nth 1 same true).
(** 5395-5406: the notes between the changes. *)
Fixpoint group_from (cur : list bnote) (rest : list (bool * bnote)) : list (list bnote) :=
  match rest with
  | [] => [cur]
  | (same, x) :: r => if same then group_from (cur ++ [x]) r else cur :: group_from [x] r
  end.
Definition groups (l : list bnote) : list (list bnote) :=
  match l with [] => [] | a :: l' => group_from [a] (combine (next_same l) l') end.
(** m21utilities.py:1191-1200, of a natural number. *)
Definition pow2 (n : nat) : bool := negb (n =? 0) && (N.land (N.of_nat n) (N.of_nat n - 1) =? 0)%N.

(** 5348-5371: one tremolo of the whole beam; None: too few slashes. *)
Definition bowed (d : Q) (n : nat) : option (list tmark) :=
  let tdur := (d * q_of n)%Q in
  let note_beams := tlog2 tdur in
  let slashes := (- (if note_beams <? 0 then tlog2 d - note_beams else tlog2 d))%Z in
  if (slashes <=? 0)%Z then None else Some (Trem tdur slashes :: repeat Hidden (n - 1)).
(** 5421-5430: one tremolo for each group. *)
Definition group_marks (d : Q) (g : list bnote) : list tmark :=
  let tdur := (d * q_of (List.length g))%Q in
  Trem tdur (- tlog2 (d / tdur)) :: repeat Hidden (List.length g - 1).
(** 5444-5458: every note is the same as the one before the one before. *)
Fixpoint alternates (l : list bnote) : bool :=
  match l with
  | a :: l' => match l' with
               | _ :: c :: _ => pitches_eqb (b_pitches c) (b_pitches a) && alternates l'
               | _ => true
               end
  | [] => true
  end.

(** 5265-5485, [_checkForTremolo], of the notes of a beam: the marks, and whether the beam
    is to be left out.  None: an exception. *)
Definition check_tremolo (l : list bnote) : option (list tmark * bool) :=
  let plain := Some (repeat Plain (List.length l), false) in
  match l with
  | [] => plain
  | a :: rest =>
      let d := b_dur a in
      if Qeq_bool d 0 then plain
      else if existsb b_cont l || existsb b_tie rest || existsb (fun n => negb (Qeq_bool (b_dur n) d)) rest then plain
      else
        let same := next_same l in
        if forallb (fun b => b) same then
          match bowed d (List.length l) with None => plain | Some ms => Some (ms, true) end
        else if internal same && forallb (fun g => pow2 (List.length g)) (groups l) then
          Some (flat_map (group_marks d) (groups l), false)
        else if List.length l <? 3 then plain
        else if negb (alternates l) then plain
        else
          let tdur := (d * q_of (List.length l))%Q in
          let beams := (- tlog2 d)%Z in
          if (beams <=? 0)%Z then None
          else Some (Trem2 tdur beams :: repeat Hidden (List.length l - 2) ++ [Aux tdur], true)
  end.

(** 3780-3803, 3924-3945 and 8466-8490: how long a marked note is, apart from how it looks. *)
Definition lasts (m : tmark) (n : bnote) : Q :=
  match m with
  | Plain => b_dur n
  | Trem v _ => v
  | Hidden => 0%Q
  | Trem2 v _ | Aux v => (v / 2)%Q
  end.

(** 5893-5901 and 6032-6047: a number of slashes or beams that music21 refuses (0, or more
    than 8) is left out without a word; the marks are not changed here for that. *)

(** What is put into the voice, with the times: a note stays at the time of its token
    (2077-2118); the second note of a tremolo of two notes follows the first (6056-6077). *)
Fixpoint events (now two : Q) (l : list bitem) (ms : list tmark) : list (Q * Q) :=
  match l with
  | [] => []
  | BR d :: r => (now, d) :: events (now + d)%Q two r ms
  | BN n :: r =>
      match ms with
      | [] => []
      | m :: ms' =>
          let next := events (now + b_dur n)%Q (match m with Trem2 v _ => (now + v / 2)%Q | _ => two end) r ms' in
          match m with
          | Hidden => next
          | Aux v => (two, lasts m n) :: next
          | _ => (now, lasts m n) :: next
          end
      end
  end.
(** The beam of a layer, read under the tandem interpretation for tremolos. *)
Definition read_beam (l : list bitem) : option (list (Q * Q)) :=
  match check_tremolo (beam_notes l) with
  | None => None
  | Some (ms, _) => Some (events 0 0 l ms)
  end.
