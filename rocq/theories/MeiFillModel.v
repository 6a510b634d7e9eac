(** How long the voices of a measure of an MEI file become
    (/repo/converter21/mei/meireader.py, [MeiReader.measureFromElement] 8547, 8602-8603,
    8800-8851, [_correctMRestDurs] 6814-6863, [padVoiceWithInvisibleRests] 8874-8895).

    A voice is the list of what its <layer> made, one after the other (layerFromElement appends
    them); an <mRest> or <mSpace> without @dur has the place-holder's length and a mark
    ([m21wasMRest]).  The splitting of rests whose length one note cannot write
    (splitComplexRestDurations) changes neither where things are nor how long the voice is, and
    is left out; so are objects of a <staff> outside of its layers. *)
From Coq Require Import List Ascii String NArith Bool Arith QArith.
From Verif Require Import PyStr RecipModel DurationModel.
Import ListNotations.
Local Close Scope Q_scope.

(** An object in a voice: where it is, how long, whether it is a measure rest without @dur,
    whether it is one of the rests that the reader adds, and what it is. *)
Record ev := mkEv { offset : Q; ql : Q; wasMRest : bool; added : bool; what : nat }.

Definition voice := list ev.

(** The end of the last thing ([voice.duration.quarterLength]). *)
Definition qmax (a b : Q) : Q := if Qle_bool a b then b else a.

Definition voice_length (v : voice) : Q :=
  fold_left (fun m e => qmax m (offset e + ql e)%Q) v 0%Q.

Definition staff_length (vs : list voice) : Q :=
  fold_left (fun m v => qmax m (voice_length v)) vs 0%Q.

(** meireader.py 592. *)
Definition placeHolder : Q := (1 # 512)%Q.

(** meireader.py 8547, 8602-8603, 8800-8814. *)
Definition expected (bar : option Q) (staves : list (str * list voice)) : Q :=
  let longest := fold_left (fun m s => qmax m (staff_length (snd s))) staves 0%Q in
  if negb (Qeq_bool longest 0) && negb (Qeq_bool longest placeHolder) then longest
  else match bar with
       | Some b => b
       | None => 4%Q
       end.

(** Stream.append: at the end of the voice. *)
Definition append (e : Q -> ev) (v : voice) : voice := v ++ [e (voice_length v)].

(** meireader.py 8874-8895. *)
Definition pad (v : voice) (d : Q) : voice :=
  match getPowerOfTwoQuarterLengthsWithDotsAddingTo d with
  | Some l => fold_left (fun v q => append (fun o => mkEv o q false true 0) v) l v
  | None => v
  end.

(** meireader.py 8816-8827: a staff that the measure has not. *)
Definition add_staff (target : Q) (staves : list (str * list voice)) (n : str)
  : list (str * list voice) :=
  if existsb (fun s => str_eqb (fst s) n) staves then staves
  else staves ++ [(n, [pad [] target])].

(** meireader.py 6844-6860. *)
Fixpoint correct (target c : Q) (v : voice) : voice :=
  match v with
  | [] => []
  | e :: r =>
      let o := if Qeq_bool c 0 then offset e else (offset e + c)%Q in
      if wasMRest e
      then mkEv o target false (added e) (what e)
             :: correct target (c + (target - ql e))%Q r
      else mkEv o (ql e) false (added e) (what e) :: correct target c r
  end.

(** meireader.py 8831-8851. *)
Definition fill (target : Q) (v : voice) : voice :=
  if Qle_bool target (voice_length v) then v else pad v (target - voice_length v)%Q.

(** meireader.py 8800-8851: [ns] are the expected parts. *)
Definition fill_measure (bar : option Q) (ns : list str) (staves : list (str * list voice))
  : list (str * list voice) :=
  let target := expected bar staves in
  map (fun s => (fst s, map (fun v => fill target (correct target 0 v)) (snd s)))
      (fold_left (add_staff target) ns staves).
