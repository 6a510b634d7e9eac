(** Model of the beams inside an MEI <beam>: the secondary breaks that are written
    (mei/meiscore.py) and the beams that are given to the notes when it is read
    (mei/meireader.py). *)
From Coq Require Import ZArith.
From Verif Require Import PyStr BeamModel.

(** * Writing. *)
(** [stopsBeam], [startsBeam], [allStop] (meiscore.py:643-662). *)
Definition stopsBeam (b : beam) : bool := is_stop b || is_left b.
Definition startsBeam (b : beam) : bool := is_start b || is_right b.
Definition allStop (bs : list beam) : bool := negb (length bs =? 0) && forallb stopsBeam bs.
(** [computeBreakSec] (meiscore.py:672-688). *)
Fixpoint numStartStops (ps cs : list beam) : nat :=
  match ps, cs with
  | p :: ps', c :: cs' => (if stopsBeam p && startsBeam c then 1 else 0) + numStartStops ps' cs'
  | _, _ => 0
  end.
Definition computeBreakSec (ps cs : list beam) : nat :=
  if negb (length ps =? length cs) then 0
  else let n := numStartStops ps cs in if n =? 0 then 0 else length cs - n.
(** The [breaksec] of each note of a group (meiscore.py:709-731, and [_addBreakSec],
    m21objectconvert.py:82-86): none is computed at a note all of whose beams stop. *)
Fixpoint writeBreaks (bss : list (list beam)) : list (option nat) :=
  match bss with
  | [] => []
  | [_] => [None]
  | bs :: ((b2 :: _) as bss') =>
      (if allStop b2 then None
       else let n := computeBreakSec bs b2 in if 0 <? n then Some n else None) :: writeBreaks bss'
  end.

(** * Reading. *)
(** What stands in a <beam> once its elements have been read: notes and chords, grace
    or not, with the number of flags of their value (none for a quarter note or a
    longer one), the beams that they have already (from a <beam> inside this one) and
    [breaksec], if it is there and a number; and other things.  A negative [breaksec]
    is left out. *)
Inductive thing := TOther | TNote (grace : bool) (flags : nat) (bs : list beam) (brk : option nat).

(** [beamGroupIsAllGraceNotes] (meireader.py:2757-2768). *)
Definition allGrace (ts : list thing) : bool :=
  forallb (fun t => match t with TOther => true | TNote g _ _ _ => g end) ts.
(** The checks that [beamTogether] and [applyBreaksecs] make at every note
    (meireader.py:2790-2793, 2811-2816, 2819-2821, 2840-2845, 2849-2851). *)
Definition cand (g : bool) (t : thing) : bool :=
  match t with TOther => false | TNote gr f _ _ => Bool.eqb gr g && (0 <? f) end.
Definition setBeams (t : thing) (bs : list beam) : thing :=
  match t with TOther => TOther | TNote g f _ k => TNote g f bs k end.
Definition beamsOf (t : thing) : list beam := match t with TOther => [] | TNote _ _ bs _ => bs end.

(** The first loop of [beamTogether], and the ending of the last note that it filled
    (meireader.py:2789-2806).  The second result says whether a note was filled. *)
Fixpoint fill (g started : bool) (ts : list thing) : list thing * bool :=
  match ts with
  | [] => ([], false)
  | t :: ts' =>
      match t with
      | TNote gr f [] k =>
          if cand g t then
            let '(r, later) := fill g true ts' in
            (TNote gr f (repeat (if later then if started then BContinue else BStart else BStop) f) k :: r, true)
          else let '(r, later) := fill g started ts' in (t :: r, later)
      | _ => let '(r, later) := fill g started ts' in (t :: r, later)
      end
  end.
(** Change all beams with a number greater than [n]. *)
Fixpoint above (n : nat) (f : beam -> beam) (bs : list beam) : list beam :=
  match bs, n with
  | [], _ => []
  | b :: bs', 0 => f b :: above 0 f bs'
  | b :: bs', S m => b :: above m f bs'
  end.
(** The second loop (meireader.py:2810-2835). *)
Definition endHere (b : beam) : beam :=
  match b with BContinue => BStop | BStart => BPartialRight | _ => b end.
Fixpoint loop2 (g : bool) (ts : list thing) : list thing :=
  match ts with
  | [] => []
  | t :: ts' =>
      (if cand g t then
         match find (cand g) ts' with
         | Some nx => setBeams t (above (length (beamsOf nx)) endHere (beamsOf t))
         | None => t
         end
       else t) :: loop2 g ts'
  end.
(** The third loop (meireader.py:2839-2862). *)
Definition hookHere (b : beam) : beam := match b with BStop => BPartialLeft | _ => b end.
Fixpoint loop3 (g : bool) (prev : option nat) (ts : list thing) : list thing :=
  match ts with
  | [] => []
  | t :: ts' =>
      if cand g t then
        match prev with
        | Some n => setBeams t (above n hookHere (beamsOf t))
        | None => t
        end :: loop3 g (Some (length (beamsOf t))) ts'
      else t :: loop3 g prev ts'
  end.
Definition beamTogether (ts : list thing) : list thing :=
  let g := allGrace ts in loop3 g None (loop2 g (fst (fill g false ts))).

(** [applyBreaksecs] (meireader.py:2864-2913).  [pend] is the break of the note
    before, whose effect on this one is meant. *)
Definition breakEnd (b : beam) : beam := match b with BContinue => BStop | _ => b end.
Definition breakStart (b : beam) : beam := match b with BContinue => BStart | _ => b end.
Fixpoint breakLoop (g : bool) (pend : option nat) (ts : list thing) : list thing :=
  match ts with
  | [] => []
  | t :: ts' =>
      match t with
      | TNote gr f bs k =>
          if cand g t then
            let bs1 := match pend with Some n => above n breakStart bs | None => bs end in
            let bs2 := match k with Some n => above n breakEnd bs1 | None => bs1 end in
            TNote gr f bs2 None :: breakLoop g k ts'
          else t :: breakLoop g pend ts'
      | TOther => t :: breakLoop g pend ts'
      end
  end.
(** The end of [beamFromElement] (meireader.py:5987-5990). *)
Definition readBeam (ts : list thing) : list thing :=
  let r := beamTogether ts in breakLoop (allGrace r) None r.
