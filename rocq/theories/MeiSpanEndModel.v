(** How spanners with @tstamp2 of an MEI file get their ends (/repo/converter21/mei/meireader.py,
    [MeiReader.measureFromElement] 8496-8539, 8648-8691, 8741-8766).

    Of a measure are followed the numbers of its <staff>s and the spanners in it that need an
    anchor for their end: each with the number of its staff, an identifier, and the number of
    measures and the offset that @tstamp2 gives (TstampModel.v has how those are read).  A
    spanner with several staves is not modelled. *)
From Coq Require Import List Ascii String NArith Bool Arith QArith.
From Verif Require Import PyStr.
Import ListNotations.
Local Close Scope Q_scope.

Record spanEnd := mkEnd { e_staff : str; e_span : nat; e_skip : nat; e_offset : Q }.

Record meas := mkMeas { m_staves : list str; m_spans : list spanEnd }.

(** [stavesWaitingFromStaffItem]: a dict from staff to the objects with their offsets. *)
Definition waiting := list (str * list (nat * Q)).

Fixpoint wait (n : str) (x : nat * Q) (w : waiting) : waiting :=
  match w with
  | [] => [(n, [x])]
  | (k, v) :: r => if str_eqb k n then (k, v ++ [x]) :: r else (k, v) :: wait n x r
  end.

(** meireader.py 8511-8537: the pending ends, one measure later. *)
Fixpoint due_pending (l : list spanEnd) (w : waiting) : waiting * list spanEnd :=
  match l with
  | [] => (w, [])
  | p :: r =>
      let k := e_skip p - 1 in
      if Nat.eqb k 0
      then due_pending r (wait (e_staff p) (e_span p, e_offset p) w)
      else let '(w', still) := due_pending r w in
           (w', mkEnd (e_staff p) (e_span p) k (e_offset p) :: still)
  end.

(** meireader.py 8673-8691: the spanners of this measure. *)
Fixpoint due_own (l : list spanEnd) (w : waiting) : waiting * list spanEnd :=
  match l with
  | [] => (w, [])
  | p :: r =>
      if Nat.eqb (e_skip p) 0
      then due_own r (wait (e_staff p) (e_span p, e_offset p) w)
      else let '(w', still) := due_own r w in (w', p :: still)
  end.

Fixpoint lookup (n : str) (w : waiting) : list (nat * Q) :=
  match w with
  | [] => []
  | (k, v) :: r => if str_eqb k n then v else lookup n r
  end.

(** meireader.py 8741-8751: an object for a staff that has no <staff> in this measure is
    ignored.  The result is what the measure of staff [n] gets, and what is pending. *)
Definition ends_of_measure (n : str) (pend : list spanEnd) (m : meas)
  : list (nat * Q) * list spanEnd :=
  let '(w1, still) := due_pending pend [] in
  let '(w2, own) := due_own (m_spans m) w1 in
  (if existsb (fun k => str_eqb k n) (m_staves m) then lookup n w2 else [], still ++ own).

(** The measures of the file one after the other, whatever their sections
    (sectionScoreCore 8998). *)
Fixpoint ends_from (n : str) (pend : list spanEnd) (l : list meas) : list (list (nat * Q)) :=
  match l with
  | [] => []
  | m :: r => let '(out, pend') := ends_of_measure n pend m in out :: ends_from n pend' r
  end.

Definition read_ends (n : str) (l : list meas) : list (list (nat * Q)) := ends_from n [] l.
