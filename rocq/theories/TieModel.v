(** Ties found for export to MEI (converter21/mei/meiscore.py 447-498, 779-905). *)
From Verif Require Import PyStr.
From Coq Require Export QArith.
Local Close Scope Q_scope.

(** Types of ties. *)
Inductive tie_mark := TieStart | TieContinue | TieStop | TieLetRing.
(** A note, alone or in a chord: its identity, its [nameWithOctave], and its tie. *)
Record tnote := TNote { n_id : nat; n_name : str; n_tie : option tie_mark }.
(** meiscore.py:795-806, [startsTie]. *)
Definition n_starts (n : tnote) : bool := match n_tie n with Some TieStart | Some TieContinue => true | _ => false end.
(** An object of a voice: the notes of the chord, or the single note (none if it is neither, as rests, unpitched notes and
    chord symbols; meiscore.py:785-793); its offset in the part; its quarter length. *)
Record tobj := TObj { o_notes : list tnote; o_off : Q; o_ql : Q }.

(** A tie under search: [M21TieSpanner] with its start note, the earliest offset of its end (computed here on creation,
    meiscore.py:829-841), and the number of measures searched. *)
Record otie := OTie { u_start : nat; u_name : str; u_min : Q; u_count : nat }.
(** The ties that have been given an end, with the end; the ties under search. *)
Record tiestate := TieState { joined : list (otie * nat); opened : list otie }.

(** meiscore.py:862-885. *)
Definition start_tie (o : tobj) (l : list otie) (n : tnote) : list otie :=
  if n_starts n then l ++ [OTie (n_id n) (n_name n) (o_off o + o_ql o)%Q 1] else l.

(** meiscore.py:808-857, [stopsTieInWhichSpanner]. *)
Definition stops_tie (off : Q) (n : tnote) (u : otie) : bool := negb (Nat.eqb (n_id n) (u_start u)) && str_eqb (u_name u) (n_name n) && Qle_bool (u_min u) off.
(** The first such tie, and the others. *)
Fixpoint take_tie (off : Q) (n : tnote) (l : list otie) : option (otie * list otie) :=
  match l with
  | [] => None
  | u :: r => if stops_tie off n u then Some (u, r) else match take_tie off n r with Some (v, r') => Some (v, u :: r') | None => None end
  end.
(** meiscore.py:887-905. *)
Definition stop_tie (o : tobj) (st : tiestate) (n : tnote) : tiestate :=
  match take_tie (o_off o) n (opened st) with
  | Some (u, r) => TieState (joined st ++ [(u, n_id n)]) r
  | None => st
  end.

(** meiscore.py:779-905, [annotateTies]. *)
Definition annotateTies (stopsOnly : bool) (st : tiestate) (o : tobj) : tiestate :=
  let st1 := if stopsOnly then st else TieState (joined st) (fold_left (start_tie o) (o_notes o) (opened st)) in
  fold_left (stop_tie o) (o_notes o) st1.

(** meiscore.py:452-460. *)
Definition next_measure (l : list otie) : list otie :=
  map (fun u => OTie (u_start u) (u_name u) (u_min u) (S (u_count u))) (filter (fun u => Nat.ltb (u_count u) 2) l).

(** A voice is a list of objects, a measure a list of voices. *)
Notation tmeasure := (list (list tobj)).
(** meiscore.py:447-491: a measure with its voices; if ties are left, the voices are run through again. *)
Definition ties_measure (st : tiestate) (m : tmeasure) : tiestate :=
  let st0 := TieState (joined st) (next_measure (opened st)) in
  let st1 := fold_left (fun s v => fold_left (annotateTies false) v s) m st0 in
  match opened st1 with
  | [] => st1
  | _ => fold_left (fun s v => fold_left (annotateTies true) v s) m st1
  end.
(** A part; start and end of the ties found. *)
Definition ties_part (p : list tmeasure) : tiestate := fold_left ties_measure p (TieState [] []).
Definition ties_of (p : list tmeasure) : list (nat * nat) := map (fun ue => (u_start (fst ue), snd ue)) (joined (ties_part p)).
