(** Model of the beams that are put on the notes of one beamed group when a Humdrum
    file is read (humdrum/humdrumfile.py). *)
From Coq Require Import ZArith.
From Verif Require Import PyStr BeamModel.

(** The tokens of a group as they are handled: notes or chords with the number of
    beams that their value asks for ([_getNumBeamsForNoteOrChord], taken as given)
    and the number kept under "breakBeamCount" (0 if there is none), and rests.
    Grace notes and tokens without a value are passed over; tremolos are left out. *)
Inductive bitem := BNote (c br : nat) | BRest.

(** Change all beams with a number greater than [n]. *)
Definition setFrom (n : nat) (f : beam -> beam) (bs : list beam) : list beam :=
  firstn n bs ++ map f (skipn n bs).

(** [_continueBeam] and, with [last], [_endBeam] (humdrumfile.py:3656-3706), for a
    note with [c] beams after one with value [cp], break [brp] and beams [pb]: the
    new beams of both.  Asking for a beam that is not there raises: [None]. *)
Definition continueBeam (last : bool) (cp brp : nat) (pb : list beam) (c : nat)
  : option (list beam * list beam) :=
  let kind := if last then BStop else BContinue in
  let r :=
    if (0 <? c) && (c <? cp) then
      if length pb <? cp then None
      else Some (setFrom c (fun b => if is_start b then BPartialRight else BStop) (firstn cp pb) ++ skipn cp pb,
                 repeat kind c)
    else if (0 <? cp) && (cp <? c) then
      Some (pb, if last then repeat BStop cp ++ repeat BPartialLeft (c - cp)
                else repeat BContinue cp ++ repeat BStart (c - cp))
    else Some (pb, repeat kind c) in
  match r with
  | None => None
  | Some (pb, bs) =>
      if (0 <? brp) && (cp =? c) && (brp <? c) then
        if length pb <? c then None
        else Some (setFrom brp (fun _ => BStop) (firstn c pb) ++ skipn c pb, setFrom brp (fun _ => BStart) bs)
      else Some (pb, bs)
  end.

(** The group after its first token: [p] is the token at previousBeamTokenIdx, [pb]
    its beams, [k] the rests since (humdrumfile.py:3439-3450 and the checks for
    rests in [_continueBeam], 3635-3641 and 3659-3660). *)
Fixpoint go (p : bitem) (pb : list beam) (k : nat) (xs : list bitem) : option (list (list beam)) :=
  match xs with
  | [] => Some (pb :: repeat [] k)
  | BRest :: xs' => go p pb (S k) xs'
  | BNote c br :: xs' =>
      match p with
      | BRest => option_map (fun r => pb :: repeat [] k ++ r) (go (BNote c br) [] 0 xs')
      | BNote cp brp =>
          match continueBeam (match xs' with [] => true | _ => false end) cp brp pb c with
          | None => None
          | Some (pb', bs) => option_map (fun r => pb' :: repeat [] k ++ r) (go (BNote c br) bs 0 xs')
          end
      end
  end.
(** [_startBeam] on the first token (humdrumfile.py:3434-3438, 3587-3610): nothing is
    done for a rest. *)
Definition group (xs : list bitem) : option (list (list beam)) :=
  match xs with
  | [] => Some []
  | BNote c br :: xs' => go (BNote c br) (repeat BStart c) 0 xs'
  | BRest :: xs' => go BRest [] 0 xs'
  end.

(** [_storeSecondaryBreakBeamCount] (humdrumfile.py:4230-4245): where the number of
    open beams is less than before and after. *)
Fixpoint breaks (prev : option Z) (ss : list Z) : list nat :=
  match ss with
  | [] => []
  | [_] => [0]
  | s :: ((s3 :: _) as ss') =>
      (match prev with
       | Some p => if (s <? p)%Z && (s <? s3)%Z then Z.to_nat s else 0
       | None => 0
       end) :: breaks (Some s) ss'
  end.
(** The open beams after each token of a group (humdrumfile.py:4266-4315, as in
    BeamModel), from the letters of the tokens. *)
Fixpoint opens (s : Z) (texts : list str) : list Z :=
  match texts with
  | [] => []
  | t :: ts => (s + net t)%Z :: opens (s + net t) ts
  end.

(** A group of notes that ask for [cs] beams, read from its letters. *)
Definition readBeams (cs : list nat) (texts : list str) : option (list (list beam)) :=
  group (map (fun x => BNote (fst x) (snd x)) (combine cs (breaks None (opens 0 texts)))).
